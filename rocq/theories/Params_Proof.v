From Coq Require Import List Arith Reals Lra Lia Bool String.
From Verif Require Import Base Num Params_Model Params_Spec.
Import ListNotations.
Local Open Scope list_scope.
Set Implicit Arguments.
Unset Strict Implicit.
Notation length := List.length.

(** ---- index loops as folds over the list of functions ---- *)
Fixpoint foldM {A S} (f : A -> S -> res S) (l : list A) (s : S) : res S :=
  match l with [] => Ok s | x :: t => do s' <- f x s; foldM f t s' end.

Lemma foldM_app {A S} (f : A -> S -> res S) a b s : foldM f (a ++ b) s = (do s' <- foldM f a s; foldM f b s').
Proof. revert s; induction a as [|x a IH]; intros s; simpl; auto. destruct (f x s); simpl; auto. Qed.

Lemma for_foldM {A S} (f : A -> S -> res S) (l : list A) : forall (g : nat -> S -> res S) k s,
  (forall i x s, nth_error l i = Some x -> g (k + i) s = f x s) ->
  for_from k (length l) g s = foldM f l s.
Proof.
  induction l as [|x l IH]; intros g k s H; simpl; auto.
  rewrite <- (Nat.add_0_r k) at 1. rewrite (H 0 x s eq_refl). destruct (f x s); simpl; auto.
  apply IH. intros i y t Hi. rewrite <- (H (Datatypes.S i) y t Hi). f_equal. lia.
Qed.

Lemma get_app {A} (a b : list A) x : get (a ++ x :: b) (length a) = Ok x.
Proof. unfold get. rewrite nth_error_app2, Nat.sub_diag by auto. reflexivity. Qed.
Lemma get_app_eq {A} (a b : list A) x n : n = length a -> get (a ++ x :: b) n = Ok x.
Proof. intros ->. apply get_app. Qed.
Lemma set_app {A} (a b : list A) x y n : n = length a -> set (a ++ x :: b) n y = Ok (a ++ y :: b).
Proof.
  intros ->. rewrite set_lt by (rewrite app_length; simpl; lia). f_equal.
  induction a as [|h a IH]; simpl; auto. now rewrite IH.
Qed.

Lemma Forall2_len {A B} (P : A -> B -> Prop) a b : Forall2 P a b -> length a = length b.
Proof. induction 1; simpl; auto. Qed.

Section Blk.
  Variable T : Type.
  Implicit Types bs : list (blk T).

  Definition flag_list bs : list bool :=
    flat_map (fun b => match b_funcs b with [] => [] | _ :: t => true :: repeat false (length t) end) bs.
  Definition zip bs : list (bool * nat) :=
    flat_map (fun b => match b_funcs b with [] => [] | f :: t => (true, length f) :: map (fun g => (false, length g)) t end) bs.

  Lemma zip_fst bs : map fst (zip bs) = flag_list bs.
  Proof.
    induction bs as [|b bs IH]; simpl; auto. rewrite map_app, IH. f_equal.
    destruct (b_funcs b) as [|f t]; simpl; auto. f_equal. rewrite map_map. simpl.
    induction t; simpl; auto. now f_equal.
  Qed.
  Lemma zip_snd bs : map snd (zip bs) = sizes bs.
  Proof.
    unfold sizes. induction bs as [|b bs IH]; simpl; auto. rewrite map_app, IH. f_equal.
    destruct (b_funcs b) as [|f t]; simpl; auto. f_equal. rewrite map_map. reflexivity.
  Qed.
  Lemma zip_get bs i p : nth_error (zip bs) i = Some p ->
    get (flag_list bs) i = Ok (fst p) /\ get (sizes bs) i = Ok (snd p).
  Proof.
    intros H. rewrite <- zip_fst, <- zip_snd. unfold get. rewrite !nth_error_map, H. auto.
  Qed.
  Lemma zip_length bs : length (zip bs) = length (sizes bs).
  Proof. rewrite <- zip_snd, map_length. reflexivity. Qed.
  Lemma sizes_cons b bs : sizes (b :: bs) = map (@List.length T) (b_funcs b) ++ sizes bs.
  Proof. reflexivity. Qed.

  (** the traversal pattern used everywhere *)
  Lemma loop_zip {S} (body : bool -> nat -> S -> res S) bs s :
    for_ (length (sizes bs)) (fun n s =>
      do flag <- get (flag_list bs) n; do sz <- get (sizes bs) n; body flag sz s) s
    = foldM (fun p s => body (fst p) (snd p) s) (zip bs) s.
  Proof.
    unfold for_. rewrite <- zip_length. apply for_foldM.
    intros i p s' Hi. simpl. destruct (zip_get Hi) as [-> ->]. reflexivity.
  Qed.

  (** ---- DefineFunctionSets ---- *)
  Lemma defsets_aux bs : Forall (fun b => b_funcs b <> []) bs -> forall pre,
    foldM (fun nn f => set f nn true) (starts (length pre) bs) (pre ++ repeat false (length (sizes bs)))
    = Ok (pre ++ flag_list bs).
  Proof.
    induction 1 as [|b bs Hb HF IH]; intros pre; [reflexivity|].
    rewrite sizes_cons, app_length, map_length. cbn [starts flag_list flat_map foldM].
    destruct (b_funcs b) as [|f t] eqn:Ef; [congruence|]. cbn [length Nat.add repeat].
    rewrite set_app by reflexivity. cbn [bind].
    specialize (IH (pre ++ true :: repeat false (length t))).
    rewrite app_length in IH. cbn [length] in IH. rewrite repeat_length in IH.
    rewrite repeat_app. unfold flag_list in IH |- *.
    replace (pre ++ true :: repeat false (length t) ++ repeat false (length (sizes bs)))
      with ((pre ++ true :: repeat false (length t)) ++ repeat false (length (sizes bs))) by now rewrite <- app_assoc.
    rewrite IH. rewrite <- app_assoc. reflexivity.
  Qed.

  Lemma loop_list {A S} (f : A -> S -> res S) (l : list A) s :
    for_ (length l) (fun i s => do x <- get l i; f x s) s = foldM f l s.
  Proof. unfold for_. apply for_foldM. intros i x t Hi. cbn [Nat.add]. unfold get. rewrite Hi. reflexivity. Qed.

  Lemma defsets_ok bs : blocks_ok bs ->
    DefineFunctionSets (length (sizes bs)) (starts 0 bs) = Ok (flag_list bs).
  Proof.
    intros [Hne HF]. unfold DefineFunctionSets. destruct bs as [|b bs]; [congruence|].
    inversion HF as [|? ? Hb HF']; subst.
    rewrite sizes_cons, app_length, map_length.
    destruct (b_funcs b) as [|f t] eqn:Ef; [congruence|]. cbn [length Nat.add repeat].
    assert (E0 : set (false :: repeat false (length t + length (sizes bs))) 0 true
                 = Ok (true :: repeat false (length t + length (sizes bs)))) by reflexivity.
    rewrite E0. cbn [bind]. rewrite loop_list. cbn [starts foldM]. rewrite Ef.
    assert (E1 : set (true :: repeat false (length t + length (sizes bs))) 0 true
                 = Ok (true :: repeat false (length t + length (sizes bs)))) by reflexivity.
    rewrite E1. cbn [bind]. rewrite repeat_app. cbn [length Nat.add].
    pose proof (defsets_aux HF' (true :: repeat false (length t))) as A.
    cbn [length] in A. rewrite repeat_length in A. cbn [app] in A. rewrite A.
    unfold flag_list. cbn [flat_map]. rewrite Ef. reflexivity.
  Qed.

  Lemma fold_add l : forall a, fold_left Nat.add l a = a + list_sum l.
  Proof. induction l as [|x l IH]; intros a; simpl; [lia|]. rewrite IH. unfold list_sum. lia. Qed.

  Lemma flat_length bs : length (flat bs) = list_sum (sizes bs) + 2 * length bs.
  Proof.
    unfold flat, sizes. induction bs as [|b bs IH]; auto. cbn [flat_map length].
    rewrite app_length, list_sum_app, IH. cbn [length].
    assert (E : length (concat (b_funcs b)) = list_sum (map (@List.length T) (b_funcs b))).
    { induction (b_funcs b); simpl; auto. rewrite app_length. unfold list_sum in *. simpl. lia. }
    rewrite E. lia.
  Qed.

  Lemma starts_length bs : forall k, length (starts k bs) = length bs.
  Proof. induction bs; intros k; simpl; auto. Qed.

  Lemma nparams_ok bs : nParamsTot (sizes bs) (starts 0 bs) = length (flat bs).
  Proof. unfold nParamsTot. rewrite fold_add, starts_length, flat_length. reflexivity. Qed.

  (** ---- setup_calls ---- *)
  Definition sc_body (params : list T) (flag : bool) (sz : nat) (s : nat * option (T * T) * list (nat * T * T)) :=
    let '(offset, xy, calls) := s in
    do st <- (if flag then
                do x0 <- get params offset;
                do y0 <- get params (offset + 1);
                Ok (offset + 2, Some (x0, y0))
              else Ok (offset, xy));
    let '(offset, xy) := st in
    match xy with
    | Some (x0, y0) => Ok (offset + sz, xy, calls ++ [(offset, x0, y0)])
    | None => Undef
    end.

  Definition sees (params : list T) (c : nat * T * T) (e : T * T * list T) : Prop :=
    let '(off, x, y) := c in let '(x', y', f) := e in
    x = x' /\ y = y' /\ own params off (length f) = Ok f.

  (** indices owned by one call: the centre when it opens a block, and its own ones *)
  Definition role (c : bool * nat * (nat * T * T)) : list nat :=
    let '(flag, sz, (off, _, _)) := c in
    (if flag then [off - 2; off - 1] else []) ++ seq off sz.

  Lemma own_app (a f b : list T) n : n = length a -> own (a ++ f ++ b) n (length f) = Ok f.
  Proof.
    intros ->. unfold own. destruct (Nat.leb_spec (length a + length f) (length (a ++ f ++ b))) as [H|H].
    - f_equal. rewrite skipn_app, skipn_all, Nat.sub_diag. cbn [skipn app].
      rewrite firstn_app, firstn_all, Nat.sub_diag. cbn [firstn]. apply app_nil_r.
    - rewrite !app_length in H. lia.
  Qed.

  (** the functions of a block after the first *)
  Lemma sc_rest params x y fs : forall pre post calls,
    params = pre ++ concat fs ++ post ->
    exists calls', foldM (fun p s => sc_body params (fst p) (snd p) s) (map (fun g => (false, length g)) fs)
       (length pre, Some (x, y), calls) = Ok (length (pre ++ concat fs), Some (x, y), calls ++ calls') /\
      Forall2 (sees params) calls' (map (fun f => (x, y, f)) fs) /\
      flat_map role (combine (map (fun g => (false, length g)) fs) calls') = seq (length pre) (length (concat fs)).
  Proof.
    induction fs as [|f fs IH]; intros pre post calls HP.
    - exists []. simpl. rewrite !app_nil_r. auto.
    - cbn [concat map foldM fst snd]. cbn [concat] in HP.
      assert (HP' : params = (pre ++ f) ++ concat fs ++ post) by (rewrite HP; now rewrite <- !app_assoc).
      destruct (IH (pre ++ f) post (calls ++ [(length pre, x, y)]) HP') as (calls' & E & F & RL).
      exists ((length pre, x, y) :: calls'). unfold sc_body at 1. cbn [bind].
      rewrite app_length in E. rewrite E. split; [|split].
      + rewrite <- !app_assoc. reflexivity.
      + constructor; auto. simpl. repeat split; auto. subst params. rewrite <- app_assoc. now apply own_app.
      + cbn [combine flat_map role app]. rewrite RL, !app_length, seq_app. reflexivity.
  Qed.

  Lemma sc_blocks params bs : Forall (fun b => b_funcs b <> []) bs -> forall pre post xy calls,
    params = pre ++ flat bs ++ post ->
    exists xy' calls', foldM (fun p s => sc_body params (fst p) (snd p) s) (zip bs)
       (length pre, xy, calls) = Ok (length (pre ++ flat bs), xy', calls ++ calls') /\
      Forall2 (sees params) calls' (seen bs) /\
      flat_map role (combine (zip bs) calls') = seq (length pre) (length (flat bs)).
  Proof.
    induction 1 as [|b bs Hb HF IH]; intros pre post xy calls HP.
    - exists xy, []. simpl. rewrite !app_nil_r. auto.
    - cbn [zip flat flat_map] in *. fold (flat bs) in *. fold (zip bs) in *.
      destruct (b_funcs b) as [|f t] eqn:Ef; [congruence|].
      cbn [concat] in *.
      rewrite foldM_app. cbn [foldM fst snd].
      (* first function *)
      assert (G0 : get params (length pre) = Ok (b_x b)).
      { rewrite HP. rewrite <- !app_assoc. cbn [app]. apply get_app. }
      assert (G1 : get params (length pre + 1) = Ok (b_y b)).
      { rewrite HP. replace (pre ++ ((b_x b :: b_y b :: f ++ concat t) ++ flat bs) ++ post)
          with ((pre ++ [b_x b]) ++ b_y b :: (f ++ concat t) ++ flat bs ++ post) by (cbn [app]; rewrite <- !app_assoc; reflexivity).
        apply get_app_eq. rewrite app_length. reflexivity. }
      unfold sc_body at 1. cbn [bind]. rewrite G0. cbn [bind]. rewrite G1. cbn [bind].
      destruct (@sc_rest params (b_x b) (b_y b) t (pre ++ b_x b :: b_y b :: f) (flat bs ++ post) (calls ++ [(length pre + 2, b_x b, b_y b)]))
        as (c1 & E1 & F1 & R1).
      { rewrite HP. rewrite <- !app_assoc. cbn [app]. rewrite <- !app_assoc. reflexivity. }
      assert (L1 : length (pre ++ b_x b :: b_y b :: f) = length pre + 2 + length f) by (rewrite app_length; simpl; lia).
      rewrite L1 in E1. rewrite E1. cbn [bind].
      destruct (IH (pre ++ b_x b :: b_y b :: f ++ concat t) post (Some (b_x b, b_y b)) ((calls ++ [(length pre + 2, b_x b, b_y b)]) ++ c1))
        as (xy' & c2 & E2 & F2 & R2).
      { rewrite HP. rewrite <- !app_assoc. cbn [app]. rewrite <- !app_assoc. reflexivity. }
      replace (length ((pre ++ b_x b :: b_y b :: f) ++ concat t)) with (length (pre ++ b_x b :: b_y b :: f ++ concat t)).
      2:{ rewrite !app_length; cbn [length]; rewrite !app_length; lia. }
      rewrite E2. exists xy', ((length pre + 2, b_x b, b_y b) :: c1 ++ c2). split; [|split].
      + f_equal. f_equal; [f_equal; rewrite <- !app_assoc; reflexivity|]. rewrite <- !app_assoc. reflexivity.
      + cbn [seen flat_map]. rewrite Ef. cbn [map app]. constructor.
        * simpl. repeat split; auto.
          replace params with ((pre ++ [b_x b; b_y b]) ++ f ++ (concat t ++ flat bs ++ post)).
          2:{ rewrite HP. rewrite <- !app_assoc. cbn [app]. rewrite <- !app_assoc. reflexivity. }
          apply own_app. rewrite app_length. reflexivity.
        * apply Forall2_app; auto.
      + cbn [combine flat_map role app].
        assert (Lc1 : length c1 = length t).
        { apply Forall2_len in F1. now rewrite map_length in F1. }
        assert (Ecomb : forall (A B : Type) (a1 a2 : list A) (b1 b2 : list B), length a1 = length b1 ->
                 combine (a1 ++ a2) (b1 ++ b2) = combine a1 b1 ++ combine a2 b2).
        { induction a1 as [|? ? IHa]; intros a2 [|? b1] b2 Hl; simpl in *; try discriminate; auto.
          f_equal. apply IHa. lia. }
        rewrite Ecomb by (rewrite map_length; lia).
        rewrite flat_map_app, R1, R2, L1.
        cbn [length app]. rewrite !app_length. cbn [length]. rewrite !app_length.
        replace (length pre + 2 - 2) with (length pre) by lia. replace (length pre + 2 - 1) with (S (length pre)) by lia.
        cbn [Nat.add seq]. f_equal. f_equal.
        rewrite !seq_app. replace (S (S (length pre))) with (length pre + 2) by lia. rewrite <- !app_assoc.
        f_equal. f_equal; f_equal; lia.
  Qed.

  Lemma layout_ok bs : blocks_ok bs ->
    exists flags calls,
      DefineFunctionSets (length (sizes bs)) (starts 0 bs) = Ok flags /\
      nParamsTot (sizes bs) (starts 0 bs) = length (flat bs) /\
      setup_calls (flat bs) (sizes bs) flags = Ok calls /\
      Forall2 (sees (flat bs)) calls (seen bs) /\
      flat_map role (combine (combine flags (sizes bs)) calls) = seq 0 (length (flat bs)).
  Proof.
    intros Hok. pose proof (proj2 Hok) as HF.
    destruct (@sc_blocks (flat bs) bs HF [] [] None []) as (xy & calls & E & F & RL).
    { cbn [app]. now rewrite app_nil_r. }
    exists (flag_list bs), calls. split; [now apply defsets_ok|]. split; [apply nparams_ok|].
    split; [|split]; auto.
    - unfold setup_calls. 
      assert (E' : for_ (length (sizes bs)) (fun n s => do flag <- get (flag_list bs) n; do sz <- get (sizes bs) n; sc_body (flat bs) flag sz s)
        (0, None, []) = Ok (length (flat bs), xy, calls)).
      { rewrite loop_zip. exact E. }
      rewrite (@for_ext _ _ (fun n s => do flag <- get (flag_list bs) n; do sz <- get (sizes bs) n; sc_body (flat bs) flag sz s)).
      + rewrite E'. reflexivity.
      + intros i [[o xy0] c] _. reflexivity.
    - assert (Ez : combine (flag_list bs) (sizes bs) = zip bs).
      { rewrite <- zip_fst, <- zip_snd. clear. induction (zip bs) as [|[a b] l IHl]; auto. cbn [map combine fst snd]. now rewrite IHl. }
      rewrite Ez. exact RL.
  Qed.

  (** ---- GetImageOffsets ---- *)
  Definition go_body (ox oy : T) (flag : bool) (sz : nat) (s : nat * list T) :=
    let '(indexOffset, ps) := s in
    if flag then
      do p1 <- set ps indexOffset ox;
      do p2 <- set p1 (indexOffset + 1) oy;
      Ok (indexOffset + 2 + sz, p2)
    else Ok (indexOffset + sz, ps).

  Lemma skip_rest {S} (body : bool -> nat -> nat * S -> res (nat * S)) fs :
    (forall sz o s, body false sz (o, s) = Ok (o + sz, s)) -> forall o s,
    foldM (fun p s => body (fst p) (snd p) s) (map (fun g : list T => (false, length g)) fs) (o, s)
    = Ok (o + length (concat fs), s).
  Proof.
    intros H. induction fs as [|f fs IH]; intros o s; cbn [map foldM concat length].
    - f_equal. f_equal. lia.
    - cbn [fst snd]. rewrite H. cbn [bind]. rewrite IH, app_length. f_equal. f_equal. lia.
  Qed.

  Lemma go_blocks ox oy bs : Forall (fun b => b_funcs b <> []) bs -> forall pre,
    foldM (fun p s => go_body ox oy (fst p) (snd p) s) (zip bs) (length pre, pre ++ flat bs)
    = Ok (length (pre ++ flat bs), pre ++ flat (recentre (fun _ => (ox, oy)) bs)).
  Proof.
    induction 1 as [|b bs Hb HF IH]; intros pre; [cbn; rewrite app_nil_r; reflexivity|].
    cbn [zip flat flat_map recentre map] in *. fold (flat bs) in *. fold (zip bs) in *.
    fold (recentre (fun _ : blk T => (ox, oy)) bs) in *. fold (flat (recentre (fun _ : blk T => (ox, oy)) bs)) in *.
    destruct (b_funcs b) as [|f t] eqn:Ef; [congruence|].
    rewrite foldM_app. cbn [foldM fst snd]. unfold go_body at 1.
    cbn [app]. rewrite set_app by reflexivity. cbn [bind].
    replace (pre ++ ox :: b_y b :: concat (f :: t) ++ flat bs)
      with ((pre ++ [ox]) ++ b_y b :: concat (f :: t) ++ flat bs) by now rewrite <- app_assoc.
    rewrite set_app by (rewrite app_length; reflexivity). cbn [bind].
    rewrite (@skip_rest _ (go_body ox oy)) by reflexivity. cbn [bind].
    specialize (IH (pre ++ ox :: oy :: concat (f :: t))).
    replace (length pre + 2 + length f + length (concat t)) with (length (pre ++ ox :: oy :: concat (f :: t))).
    2:{ rewrite app_length. cbn [length concat]. rewrite app_length. lia. }
    replace ((pre ++ [ox]) ++ oy :: concat (f :: t) ++ flat bs)
      with ((pre ++ ox :: oy :: concat (f :: t)) ++ flat bs) by now rewrite <- !app_assoc.
    rewrite IH. cbn [b_x b_y b_funcs fst snd]. f_equal. f_equal.
    - rewrite !app_length. cbn [length]. rewrite app_length. lia.
    - now rewrite <- !app_assoc.
  Qed.

  Lemma offsets_ok ox oy nz bs : blocks_ok bs ->
    GetImageOffsets (sizes bs) (flag_list bs) ox oy nz (flat bs) =
    Ok (if nz then flat (recentre (fun _ => (ox, oy)) bs) else flat bs).
  Proof.
    intros [_ HF]. unfold GetImageOffsets. destruct nz; auto.
    rewrite (@for_ext _ _ (fun n s => do flag <- get (flag_list bs) n; do sz <- get (sizes bs) n; go_body ox oy flag sz s)).
    - rewrite loop_zip. pose proof (go_blocks ox oy HF []) as E. cbn [app length] in E. rewrite E. reflexivity.
    - intros i [o p] _. reflexivity.
  Qed.

  (** ---- assembling ---- *)
  Variable N : Num T.

  Lemma copy_ok (ext : list T) b : forall n mid epre epost opre old opost,
    length mid = n -> length old = n ->
    ext = epre ++ mid ++ epost -> length epre = b ->
    copy_params ext b (length opre) n (opre ++ old ++ opost) = Ok (opre ++ mid ++ opost).
  Proof.
    intros n mid epre epost opre old opost Hm Ho He Hb. unfold copy_params, for_.
    revert Hm Ho. 
    enough (G : forall m mid' old', length mid' = m -> length old' = m -> forall done, mid = done ++ mid' ->
      for_from (length done) m (fun i out => do v <- get ext (b + i); set out (length opre + i) v) (opre ++ done ++ old' ++ opost)
      = Ok (opre ++ mid ++ opost)).
    { intros Hm Ho. exact (G n mid old Hm Ho [] eq_refl). }
    induction m as [|m IHm]; intros mid' old' Hm' Ho' done Hd.
    - destruct mid'; [|discriminate]. destruct old'; [|discriminate]. simpl. rewrite app_nil_r in Hd. subst. reflexivity.
    - destruct mid' as [|x mid']; [discriminate|]. destruct old' as [|y old']; [discriminate|]. cbn [for_from].
      assert (Eg : get ext (b + length done) = Ok x).
      { rewrite He, Hd. rewrite <- !app_assoc. cbn [app].
        replace (epre ++ done ++ x :: mid' ++ epost) with ((epre ++ done) ++ x :: mid' ++ epost) by now rewrite <- app_assoc.
        apply get_app_eq. rewrite app_length. lia. }
      rewrite Eg. cbn [bind].
      replace (opre ++ done ++ (y :: old') ++ opost) with ((opre ++ done) ++ y :: old' ++ opost) by now rewrite <- app_assoc.
      rewrite set_app by (rewrite app_length; lia). cbn [bind].
      specialize (IHm mid' old' ltac:(simpl in Hm'; lia) ltac:(simpl in Ho'; lia) (done ++ [x]) ltac:(rewrite <- app_assoc; exact Hd)).
      rewrite app_length in IHm. cbn [length] in IHm. rewrite Nat.add_1_r in IHm. rewrite <- IHm. f_equal.
      rewrite <- !app_assoc. reflexivity.
  Qed.

  Definition as_body (ext : list T) (base : nat) (x0 y0 X Y ps rot : T) (flag : bool) (sz : nat) (s : nat * list T) :=
    let '(offset, out) := s in
    if flag then
      do X0_n_ref <- get ext (base + offset);
      do Y0_n_ref <- get ext (base + offset + 1);
      let '(X, Y, _) := CalculateOffset_X0Y0 N x0 y0 X0_n_ref Y0_n_ref X Y ps rot in
      do out <- set out offset X;
      do out <- set out (offset + 1) Y;
      Ok (offset + 2 + sz, out)
    else Ok (offset + sz, out).

  Definition moved (x0 y0 X Y ps rot : T) (b : blk T) : T * T :=
    fst (CalculateOffset_X0Y0 N x0 y0 (b_x b) (b_y b) X Y ps rot).

  Lemma as_blocks ext base x0 y0 X Y ps rot bs : Forall (fun b => b_funcs b <> []) bs -> forall epre epost pre post,
    ext = epre ++ flat bs ++ epost -> length epre = base + length pre ->
    foldM (fun p s => as_body ext base x0 y0 X Y ps rot (fst p) (snd p) s) (zip bs) (length pre, pre ++ flat bs ++ post)
    = Ok (length (pre ++ flat bs), pre ++ flat (recentre (moved x0 y0 X Y ps rot) bs) ++ post).
  Proof.
    induction 1 as [|b bs Hb HF IH]; intros epre epost pre post He Hl; [cbn; rewrite app_nil_r; reflexivity|].
    cbn [zip flat flat_map recentre map] in *. fold (flat bs) in *. fold (zip bs) in *.
    fold (recentre (moved x0 y0 X Y ps rot) bs) in *. fold (flat (recentre (moved x0 y0 X Y ps rot) bs)) in *.
    destruct (b_funcs b) as [|f t] eqn:Ef; [congruence|].
    rewrite foldM_app. cbn [foldM fst snd]. unfold as_body at 1.
    assert (G0 : get ext (base + length pre) = Ok (b_x b)).
    { rewrite He. rewrite <- !app_assoc. cbn [app]. now apply get_app_eq. }
    assert (G1 : get ext (base + length pre + 1) = Ok (b_y b)).
    { rewrite He. replace (epre ++ ((b_x b :: b_y b :: concat (f :: t)) ++ flat bs) ++ epost)
        with ((epre ++ [b_x b]) ++ b_y b :: concat (f :: t) ++ flat bs ++ epost) by (cbn [app]; rewrite <- !app_assoc; reflexivity).
      apply get_app_eq. rewrite app_length. cbn [length]. lia. }
    rewrite G0. cbn [bind]. rewrite G1. cbn [bind].
    destruct (CalculateOffset_X0Y0 N x0 y0 (b_x b) (b_y b) X Y ps rot) as [[X' Y'] st] eqn:EC.
    replace (pre ++ ((b_x b :: b_y b :: concat (f :: t)) ++ flat bs) ++ post)
      with (pre ++ b_x b :: b_y b :: concat (f :: t) ++ flat bs ++ post) by (cbn [app]; rewrite <- !app_assoc; reflexivity).
    rewrite set_app by reflexivity. cbn [bind].
    replace (pre ++ X' :: b_y b :: concat (f :: t) ++ flat bs ++ post)
      with ((pre ++ [X']) ++ b_y b :: concat (f :: t) ++ flat bs ++ post) by now rewrite <- app_assoc.
    rewrite set_app by (rewrite app_length; reflexivity). cbn [bind].
    rewrite (@skip_rest _ (as_body ext base x0 y0 X Y ps rot)) by reflexivity. cbn [bind].
    replace (length pre + 2 + length f + length (concat t)) with (length (pre ++ X' :: Y' :: concat (f :: t))).
    2:{ rewrite app_length. cbn [length concat]. rewrite app_length. lia. }
    replace ((pre ++ [X']) ++ Y' :: concat (f :: t) ++ flat bs ++ post)
      with ((pre ++ X' :: Y' :: concat (f :: t)) ++ flat bs ++ post) by now rewrite <- !app_assoc.
    rewrite (IH (epre ++ b_x b :: b_y b :: concat (f :: t)) epost (pre ++ X' :: Y' :: concat (f :: t)) post).
    - cbn [b_x b_y b_funcs fst snd]. unfold moved at 2 3. rewrite EC. cbn [fst snd]. f_equal. f_equal.
      + rewrite ?app_length. cbn [length]. rewrite ?app_length. lia.
      + rewrite <- !app_assoc. reflexivity.
    - rewrite He. rewrite <- !app_assoc. reflexivity.
    - rewrite !app_length. cbn [length]. lia.
  Qed.

  Lemma extract_ok (imgs : list (imgpar T)) rest k im : nth_error imgs k = Some im ->
    ExtractImageParams (img_flat imgs ++ rest) (S k) = Ok (i_pix im, i_rot im, i_flux im, i_x im, i_y im).
  Proof.
    revert k. induction imgs as [|i imgs IH]; intros [|k] H; try discriminate.
    - inversion H; subst. unfold ExtractImageParams, get. simpl. reflexivity.
    - simpl in H. specialize (IH k H). unfold ExtractImageParams in *.
      replace (S (S k) - 1) with (S (S k - 1)) by lia.
      replace (N_IMAGE_PARAMS * S (S k - 1)) with (5 + N_IMAGE_PARAMS * (S k - 1)) by (unfold N_IMAGE_PARAMS; lia).
      set (b := N_IMAGE_PARAMS * (S k - 1)) in *.
      unfold get in *. cbn [img_flat flat_map app Nat.add nth_error]. exact IH.
  Qed.

  Lemma img_flat_length (imgs : list (imgpar T)) : length (img_flat imgs) = N_IMAGE_PARAMS * length imgs.
  Proof.
    unfold N_IMAGE_PARAMS, img_flat. induction imgs as [|i imgs IH]; auto. cbn [flat_map length app]. rewrite IH. lia.
  Qed.

  Definition for_image (im : imgpar T) (b0 : blk T) (bs : list (blk T)) : list (blk T) :=
    mkBlk (i_x im) (i_y im) (b_funcs b0) ::
    recentre (moved (b_x b0) (b_y b0) (i_x im) (i_y im) (i_pix im) (i_rot im)) bs.

  Lemma centres_ok imgs b0 bs loc post k im : blocks_ok (b0 :: bs) -> nth_error imgs k = Some im ->
    assemble_centres N (img_flat imgs ++ flat (b0 :: bs) ++ loc) (N_IMAGE_PARAMS * length imgs) (S k)
      (sizes (b0 :: bs)) (flag_list (b0 :: bs)) (length (b0 :: bs)) (flat (b0 :: bs) ++ post)
    = Ok (flat (for_image im b0 bs) ++ post).
  Proof.
    intros [_ HF] Hk. inversion HF as [|? ? Hb HF']; subst.
    unfold assemble_centres. rewrite (extract_ok _ Hk). cbn [bind].
    destruct (b_funcs b0) as [|f t] eqn:Ef; [congruence|].
    assert (Efl : flat (b0 :: bs) = b_x b0 :: b_y b0 :: (f ++ concat t) ++ flat bs).
    { unfold flat. cbn [flat_map]. rewrite Ef. reflexivity. }
    rewrite Efl. cbn [app].
    assert (S0 : forall z, set (b_x b0 :: z) 0 (i_x im) = Ok (i_x im :: z)) by reflexivity.
    assert (S1 : forall a z, set (a :: b_y b0 :: z) 1 (i_y im) = Ok (a :: i_y im :: z)) by reflexivity.
    rewrite S0. cbn [bind]. rewrite S1. cbn [bind].
    destruct bs as [|b1 bs].
    { cbn [length Nat.ltb Nat.leb]. unfold for_image, flat. cbn [flat_map recentre map b_x b_y b_funcs]. rewrite Ef. cbn [concat app].
      rewrite <- !app_assoc. reflexivity. }
    cbn [length Nat.ltb Nat.leb].
    set (bs' := b1 :: bs) in *.
    set (ext := img_flat imgs ++ b_x b0 :: b_y b0 :: ((f ++ concat t) ++ flat bs') ++ loc).
    assert (Gx : get ext (N_IMAGE_PARAMS * length imgs) = Ok (b_x b0)).
    { apply get_app_eq. now rewrite img_flat_length. }
    assert (Gy : get ext (N_IMAGE_PARAMS * length imgs + 1) = Ok (b_y b0)).
    { unfold ext. replace (img_flat imgs ++ b_x b0 :: b_y b0 :: ((f ++ concat t) ++ flat bs') ++ loc)
        with ((img_flat imgs ++ [b_x b0]) ++ b_y b0 :: ((f ++ concat t) ++ flat bs') ++ loc) by now rewrite <- app_assoc.
      apply get_app_eq. rewrite app_length, img_flat_length. reflexivity. }
    rewrite Gx. cbn [bind]. rewrite Gy. cbn [bind].
    assert (Gs : get (sizes (b0 :: bs')) 0 = Ok (length f)).
    { unfold sizes. cbn [flat_map]. rewrite Ef. reflexivity. }
    rewrite Gs. cbn [bind].
    (* the loop *)
    assert (EL : length (sizes (b0 :: bs')) - 1 = length (map (fun g => (false, length g)) t ++ zip bs')).
    { rewrite sizes_cons, Ef, app_length, map_length, app_length, map_length, zip_length. simpl. lia. }
    rewrite EL.
    rewrite (@for_foldM _ _ (fun p s => as_body ext (N_IMAGE_PARAMS * length imgs) (b_x b0) (b_y b0) (i_x im) (i_y im) (i_pix im) (i_rot im) (fst p) (snd p) s)).
    2:{ intros i p [o out] Hi.
        assert (Hz : nth_error (zip (b0 :: bs')) (1 + i) = Some p).
        { unfold zip. cbn [flat_map]. rewrite Ef. exact Hi. }
        destruct (zip_get Hz) as [-> ->]. cbn [bind]. reflexivity. }
    rewrite foldM_app.
    rewrite (@skip_rest _ (as_body ext (N_IMAGE_PARAMS * length imgs) (b_x b0) (b_y b0) (i_x im) (i_y im) (i_pix im) (i_rot im))) by reflexivity.
    cbn [bind].
    pose proof (@as_blocks ext (N_IMAGE_PARAMS * length imgs) (b_x b0) (b_y b0) (i_x im) (i_y im) (i_pix im) (i_rot im) bs' HF'
      (img_flat imgs ++ b_x b0 :: b_y b0 :: f ++ concat t) loc (i_x im :: i_y im :: f ++ concat t) post) as A.
    assert (EO : length f + 2 + length (concat t) = length (i_x im :: i_y im :: f ++ concat t)).
    { cbn [length]. rewrite app_length. lia. }
    rewrite EO.
    replace (i_x im :: i_y im :: ((f ++ concat t) ++ flat bs') ++ post)
      with ((i_x im :: i_y im :: f ++ concat t) ++ flat bs' ++ post) by (cbn [app]; rewrite <- !app_assoc; reflexivity).
    rewrite A.
    - cbn [bind snd]. unfold for_image. unfold flat at 2. cbn [flat_map b_x b_y b_funcs]. rewrite Ef. cbn [concat app]. fold (flat (recentre (moved (b_x b0) (b_y b0) (i_x im) (i_y im) (i_pix im) (i_rot im)) bs')).
      rewrite <- !app_assoc. reflexivity.
    - unfold ext. rewrite <- !app_assoc. cbn [app]. rewrite <- !app_assoc. reflexivity.
    - rewrite !app_length, img_flat_length. cbn [length]. rewrite app_length. lia.
  Qed.

  Lemma assemble_ok imgs b0 bs k prev : blocks_ok (b0 :: bs) -> k <= length imgs ->
    length prev = length (flat (b0 :: bs)) ->
    AssembleParamsForImage N (img_flat imgs ++ flat (b0 :: bs)) (length (img_flat imgs ++ flat (b0 :: bs)))
      (S (length imgs)) k (sizes (b0 :: bs)) (flag_list (b0 :: bs)) (length (b0 :: bs)) prev
    = Ok (flat (match k with
                | O => b0 :: bs
                | S k' => match nth_error imgs k' with Some im => for_image im b0 bs | None => [] end
                end)).
  Proof.
    intros Hok Hk Hp. unfold AssembleParamsForImage.
    replace (S (length imgs) - 1) with (length imgs) by lia.
    rewrite <- img_flat_length.
    replace (length (img_flat imgs ++ flat (b0 :: bs)) - length (img_flat imgs)) with (length (flat (b0 :: bs))) by (rewrite app_length; lia).
    pose proof (@copy_ok (img_flat imgs ++ flat (b0 :: bs)) (length (img_flat imgs)) (length (flat (b0 :: bs))) (flat (b0 :: bs)) (img_flat imgs) [] [] prev []) as C.
    cbn [app length] in C. rewrite !app_nil_r in C. rewrite C by auto. cbn [bind].
    destruct k as [|k]; [reflexivity|]. cbn [Nat.ltb Nat.leb].
    destruct (nth_error imgs k) as [im|] eqn:E.
    2:{ apply nth_error_None in E. lia. }
    pose proof (@centres_ok imgs b0 bs [] [] k im Hok E) as A. rewrite !app_nil_r in A.
    rewrite img_flat_length. exact A.
  Qed.

  Lemma holder_ok imgs b0 bs (locs : list (list T)) k loc prev : blocks_ok (b0 :: bs) ->
    length locs = S (length imgs) -> nth_error locs k = Some loc ->
    length prev = length (flat (b0 :: bs)) + length loc ->
    let joint := img_flat imgs ++ flat (b0 :: bs) ++ concat locs in
    AssembleParametersForImage N joint (length joint) (S (length imgs)) k (sizes (b0 :: bs)) (flag_list (b0 :: bs)) (length (b0 :: bs))
       (map (@List.length T) locs) prev
    = Ok (flat (match k with
                | O => b0 :: bs
                | S k' => match nth_error imgs k' with Some im => for_image im b0 bs | None => [] end
                end) ++ loc).
  Proof.
    intros Hok Hl Hk Hp joint. unfold AssembleParametersForImage.
    replace (S (length imgs) - 1) with (length imgs) by lia.
    assert (Esum : forall ls : list (list T), fold_left Nat.add (map (@List.length T) ls) 0 = length (concat ls)).
    { intros ls. rewrite fold_add. induction ls as [|l ls IH]; simpl; auto. rewrite app_length. unfold list_sum in *. simpl in *. lia. }
    rewrite Esum. rewrite <- img_flat_length.
    replace (length joint - length (img_flat imgs) - length (concat locs)) with (length (flat (b0 :: bs))) by (unfold joint; rewrite !app_length; lia).
    (* split prev *)
    set (M := length (flat (b0 :: bs))) in *.
    assert (Hp1 : prev = firstn M prev ++ skipn M prev) by (symmetry; apply firstn_skipn).
    assert (L1 : length (firstn M prev) = M) by (rewrite firstn_length; lia).
    assert (L2 : length (skipn M prev) = length loc) by (rewrite skipn_length; lia).
    rewrite Hp1.
    pose proof (@copy_ok joint (length (img_flat imgs)) M (flat (b0 :: bs)) (img_flat imgs) (concat locs) [] (firstn M prev) (skipn M prev)) as C.
    cbn [app length] in C. rewrite C by auto. cbn [bind].
    assert (Hk' : k < S (length imgs)).
    { rewrite <- Hl. apply nth_error_Some. congruence. }
    set (fin := flat match k with O => b0 :: bs | S k' => match nth_error imgs k' with Some im => for_image im b0 bs | None => [] end end).
    assert (EA : (if 0 <? k then assemble_centres N joint (length (img_flat imgs)) k (sizes (b0 :: bs)) (flag_list (b0 :: bs)) (length (b0 :: bs)) (flat (b0 :: bs) ++ skipn M prev)
                  else Ok (flat (b0 :: bs) ++ skipn M prev)) = Ok (fin ++ skipn M prev)).
    { unfold fin. destruct k as [|k]; [reflexivity|]. cbn [Nat.ltb Nat.leb].
      destruct (nth_error imgs k) as [im|] eqn:E. 2:{ apply nth_error_None in E. lia. }
      rewrite img_flat_length. apply centres_ok; auto. }
    rewrite EA. cbn [bind].
    assert (Eg : get (map (@List.length T) locs) k = Ok (length loc)).
    { unfold get. rewrite nth_error_map, Hk. reflexivity. }
    rewrite Eg. cbn [bind].
    assert (Lfin : length fin = M).
    { unfold fin. destruct k as [|k]; auto. destruct (nth_error imgs k) as [im|] eqn:E.
      - unfold M. rewrite !flat_length. unfold for_image. f_equal.
        + f_equal. unfold sizes, recentre. cbn [flat_map b_funcs]. f_equal. rewrite flat_map_concat_map, flat_map_concat_map, map_map. reflexivity.
        + unfold recentre. simpl. rewrite map_length. reflexivity.
      - apply nth_error_None in E. lia. }
    destruct (nth_error_split _ _ Hk) as (l1 & l2 & El & Ll).
    rewrite firstn_map, El, <- Ll. rewrite (firstn_app (length l1) l1), firstn_all, Nat.sub_diag. cbn [firstn]. rewrite app_nil_r, Esum.
    pose proof (@copy_ok joint (length (img_flat imgs) + M + length (concat l1)) (length loc) loc
      (img_flat imgs ++ flat (b0 :: bs) ++ concat l1) (concat l2) fin (skipn M prev) []) as C2.
    rewrite !app_nil_r in C2. rewrite Lfin in C2. apply C2; auto.
    - unfold joint. rewrite El, concat_app. cbn [concat]. rewrite <- !app_assoc. reflexivity.
    - rewrite !app_length. unfold M. lia.
  Qed.
End Blk.

(** ---- labels ---- *)
Lemma labels_ok (nbs : list (blk string)) : Forall (fun b => b_funcs b <> []) nbs ->
  Forall (fun b => b_x b = "X0"%string /\ b_y b = "Y0"%string) nbs ->
  PopulateParameterNames (flat_map b_funcs nbs) (flag_list nbs) = Ok (flat nbs).
Proof.
  intros HF HX. unfold PopulateParameterNames.
  set (z := flat_map (fun b => match b_funcs b with [] => [] | f :: t => (true, f) :: map (fun g => (false, g)) t end) nbs).
  assert (E1 : map fst z = flag_list nbs).
  { unfold z, flag_list. clear. induction nbs as [|b nbs IH]; auto. cbn [flat_map]. rewrite map_app, IH. f_equal.
    destruct (b_funcs b) as [|f t]; auto. cbn [map fst]. f_equal. rewrite map_map. cbn [fst]. induction t; simpl; auto. now f_equal. }
  assert (E2 : map snd z = flat_map b_funcs nbs).
  { unfold z. clear. induction nbs as [|b nbs IH]; auto. cbn [flat_map]. rewrite map_app, IH. f_equal.
    destruct (b_funcs b) as [|f t]; auto. cbn [map snd]. f_equal. rewrite map_map. cbn [snd]. apply map_id. }
  assert (L : length (flat_map b_funcs nbs) = length z) by (rewrite <- E2, map_length; reflexivity).
  rewrite L. unfold for_.
  rewrite (@for_foldM _ _ (fun (p : bool * list string) labels => Ok ((if fst p then labels ++ ["X0"; "Y0"]%string else labels) ++ snd p)) z).
  2:{ intros i p s Hi. cbn [Nat.add]. unfold get. rewrite <- E1, <- E2, !nth_error_map, Hi. reflexivity. }
  enough (G : forall acc, foldM (fun (p : bool * list string) labels => Ok ((if fst p then labels ++ ["X0"; "Y0"]%string else labels) ++ snd p)) z acc = Ok (acc ++ flat nbs)).
  { rewrite (G []). reflexivity. }
  clear E1 E2 L. unfold z. induction nbs as [|b nbs IH]; intros acc.
  - cbn. now rewrite app_nil_r.
  - inversion HF; subst. inversion HX as [|? ? [Hx Hy] HX']; subst. cbn [flat_map flat]. rewrite foldM_app.
    destruct (b_funcs b) as [|f t] eqn:Ef; [congruence|]. cbn [foldM fst snd bind].
    assert (G : forall t acc, foldM (fun (p : bool * list string) labels => Ok ((if fst p then labels ++ ["X0"; "Y0"]%string else labels) ++ snd p)) (map (fun g => (false, g)) t) acc = Ok (acc ++ concat t)).
    { clear. induction t as [|g t IHt]; intros acc; cbn [map foldM fst snd bind concat]; [now rewrite app_nil_r|]. rewrite IHt, <- app_assoc. reflexivity. }
    rewrite G. cbn [bind]. rewrite IH by auto. rewrite Hx, Hy. cbn [concat]. fold (flat nbs). f_equal. rewrite <- !app_assoc. cbn [app]. rewrite <- !app_assoc. reflexivity.
Qed.

(** ---- exact arithmetic ---- *)
Local Open Scope R_scope.
Lemma moved_exact x0 y0 X Y ps rot (b : blk R) : 0 < ps ->
  moved NumR x0 y0 X Y ps rot b = place ps (rad rot) X Y x0 y0 (b_x b) (b_y b).
Proof.
  intros Hp. unfold moved, CalculateOffset_X0Y0. cbn [nleb nofZ NumR].
  destruct (Rleb ps 0) eqn:E; [apply Rleb_true in E; lra|]. reflexivity.
Qed.

Lemma place_similar s th X Y x0 y0 x1 y1 x2 y2 :
  let p := place s th X Y x0 y0 x1 y1 in
  let q := place s th X Y x0 y0 x2 y2 in
  let dx := x2 - x1 in let dy := y2 - y1 in
  let dx' := fst q - fst p in let dy' := snd q - snd p in
  dx' ^ 2 + dy' ^ 2 = s ^ 2 * (dx ^ 2 + dy ^ 2) /\
  dx' = s * (dx * cos th + dy * sin th) /\ dy' = s * (- dx * sin th + dy * cos th).
Proof.
  intros p q dx dy dx' dy'. unfold dx', dy', p, q, place. cbn [fst snd].
  pose proof (sin2_cos2 th) as H. unfold Rsqr in H.
  split; [|split]; [|unfold dx, dy; ring|unfold dx, dy; ring].
  transitivity (s ^ 2 * (dx ^ 2 + dy ^ 2) * (sin th * sin th + cos th * cos th)).
  - unfold dx, dy. ring.
  - rewrite H. ring.
Qed.

Lemma place_inverse s th X Y x0 y0 x y : 0 < s ->
  let p := place s th X Y x0 y0 x y in
  place (/ s) (- th) x0 y0 X Y (fst p) (snd p) = (x, y).
Proof.
  intros Hs p. unfold p, place. cbn [fst snd]. rewrite cos_neg, sin_neg.
  pose proof (sin2_cos2 th) as H. unfold Rsqr in H. f_equal.
  - transitivity (x0 + (x - x0) * (sin th * sin th + cos th * cos th)); [field; lra|]. rewrite H. ring.
  - transitivity (y0 + (y - y0) * (sin th * sin th + cos th * cos th)); [field; lra|]. rewrite H. ring.
Qed.

Lemma recentre_ext {T} (f g : blk T -> T * T) bs : (forall b, f b = g b) -> recentre f bs = recentre g bs.
Proof. intros H. unfold recentre. apply map_ext. intros b. now rewrite H. Qed.

Lemma for_image_exact im b0 bs : 0 < i_pix im ->
  for_image NumR im b0 bs =
  mkBlk (i_x im) (i_y im) (b_funcs b0) ::
  recentre (fun b => place (i_pix im) (rad (i_rot im)) (i_x im) (i_y im) (b_x b0) (b_y b0) (b_x b) (b_y b)) bs.
Proof. intros H. unfold for_image. f_equal. apply recentre_ext. intros b. now apply moved_exact. Qed.

Lemma for_image_all im b0 bs : 0 < i_pix im ->
  for_image NumR im b0 bs =
  recentre (fun b => place (i_pix im) (rad (i_rot im)) (i_x im) (i_y im) (b_x b0) (b_y b0) (b_x b) (b_y b)) (b0 :: bs).
Proof.
  intros H. rewrite for_image_exact by auto. unfold recentre. cbn [map]. f_equal.
  unfold place. cbn [fst snd]. f_equal; ring.
Qed.
