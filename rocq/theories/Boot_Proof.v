From Coq Require Import List Arith ZArith Lia Bool String Reals Lra.
From Verif Require Import Base Num Params_Model Params_Spec Params_Proof Stats_Model Boot_Model Boot_Spec.
Import ListNotations.
Local Open Scope list_scope.
Set Implicit Arguments.
Unset Strict Implicit.

Lemma nth_error_seq_map {A} (f : nat -> A) n i : i < n -> nth_error (map f (seq 0 n)) i = Some (f i).
Proof.
  intros H. rewrite nth_error_map. rewrite (nth_error_nth' _ 0) by now rewrite seq_length.
  rewrite seq_nth by auto. reflexivity.
Qed.
Lemma list_eq_nth {A} (a b : list A) : (forall i, nth_error a i = nth_error b i) -> a = b.
Proof.
  revert b; induction a as [|x a IH]; intros [|y b] H; auto.
  - specialize (H 0). discriminate.
  - specialize (H 0). discriminate.
  - f_equal; [specialize (H 0); cbn in H; congruence|]. apply IH. intros i. exact (H (S i)).
Qed.
Lemma upd_seq_map {A} (f : nat -> A) n i x : i < n ->
  upd (map f (seq 0 n)) i x = map (fun j => if j =? i then x else f j) (seq 0 n).
Proof.
  intros H. apply list_eq_nth. intros j. rewrite nth_error_upd, map_length, seq_length.
  destruct (Nat.lt_ge_cases j n) as [Hj|Hj].
  - rewrite !nth_error_seq_map by auto. rewrite (Nat.eqb_sym j i).
    replace (i <? n) with true by (symmetry; now apply Nat.ltb_lt). rewrite andb_true_r.
    destruct (i =? j); reflexivity.
  - rewrite (proj2 (nth_error_None _ _)), (proj2 (nth_error_None _ _)); rewrite ?map_length, ?seq_length; auto.
    destruct (Nat.eqb_spec i j); cbn; auto. lia.
Qed.

Lemma skipn_skipn_aux {A} (x y : nat) (l : list A) : skipn x (skipn y l) = skipn (y + x) l.
Proof. revert l; induction y as [|y IH]; intros l; auto. destruct l; cbn; [now destruct x|]. apply IH. Qed.

Section Proof.
Variables (T W : Type).
Variable N : Num T.
Notation Z0 := (nofZ N 0).

(** the array of offsets *)
Definition zeroed (bs : list (blk T)) : list (blk T) :=
  map (fun b => mkBlk Z0 Z0 (map (map (fun _ => Z0)) (b_funcs b))) bs.
Definition offv (ox oy : Z) (bs : list (blk T)) : list T :=
  flat (recentre (fun _ => (nofZ N ox, nofZ N oy)) (zeroed bs)).

Lemma zeroed_ok bs : blocks_ok bs -> blocks_ok (zeroed bs).
Proof.
  intros [H1 H2]. split; [destruct bs; [congruence|discriminate]|].
  apply Forall_map. eapply Forall_impl; [|exact H2]. intros b Hb. cbn in *. destruct (b_funcs b); [congruence|discriminate].
Qed.
Lemma recentre_ok (bs : list (blk T)) f : blocks_ok bs -> blocks_ok (recentre f bs).
Proof.
  intros [H1 H2]. split; [destruct bs; [congruence|discriminate]|].
  apply Forall_map. eapply Forall_impl; [|exact H2]. intros b Hb. exact Hb.
Qed.
Lemma sizes_zeroed bs : sizes (zeroed bs) = sizes bs.
Proof.
  unfold sizes, zeroed. induction bs as [|b bs IH]; auto. cbn [map flat_map b_funcs]. rewrite IH. f_equal.
  rewrite map_map. apply map_ext. intros l. apply map_length.
Qed.
Lemma sizes_recentre f (bs : list (blk T)) : sizes (recentre f bs) = sizes bs.
Proof. unfold sizes, recentre. induction bs as [|b bs IH]; auto. cbn [map flat_map b_funcs]. now rewrite IH. Qed.
Lemma flags_zeroed bs : flag_list (zeroed bs) = flag_list bs.
Proof.
  unfold flag_list, zeroed. induction bs as [|b bs IH]; auto. cbn [map flat_map b_funcs]. rewrite IH. f_equal.
  destruct (b_funcs b); auto. cbn [map]. now rewrite map_length.
Qed.
Lemma flags_recentre f (bs : list (blk T)) : flag_list (recentre f bs) = flag_list bs.
Proof. unfold flag_list, recentre. induction bs as [|b bs IH]; auto. cbn [map flat_map b_funcs]. now rewrite IH. Qed.
Lemma concat_zeroed (l : list (list T)) : concat (map (map (fun _ => Z0)) l) = repeat Z0 (List.length (concat l)).
Proof.
  rewrite <- concat_map. induction (concat l); cbn; congruence.
Qed.
Lemma flat_zeroed bs : flat (zeroed bs) = repeat Z0 (List.length (flat bs)).
Proof.
  induction bs as [|b bs IH]; auto. unfold zeroed, flat in *. cbn [map flat_map b_x b_y b_funcs]. rewrite IH.
  rewrite concat_zeroed. cbn [app List.length repeat]. rewrite app_length, repeat_app. reflexivity.
Qed.
Lemma recentre_twice c d (bs : list (blk T)) : recentre (fun _ => c) (recentre (fun _ => d) bs) = recentre (fun _ => c) bs.
Proof. unfold recentre. rewrite map_map. reflexivity. Qed.
Lemma flat_recentre_len f (bs : list (blk T)) : List.length (flat (recentre f bs)) = List.length (flat bs).
Proof.
  induction bs as [|b bs IH]; auto. unfold recentre, flat in *. cbn [map flat_map b_x b_y b_funcs List.length app].
  rewrite !app_length, IH. reflexivity.
Qed.
Lemma offv_len ox oy bs : List.length (offv ox oy bs) = List.length (flat bs).
Proof. unfold offv. rewrite flat_recentre_len, flat_zeroed. apply repeat_length. Qed.

Definition mo_of (bs : list (blk T)) ox oy : mo := mkMo (sizes bs) (flag_list bs) ox oy.

Lemma mo_offsets_ok ox oy bs a : blocks_ok bs -> a = repeat Z0 (List.length (flat bs)) \/ a = offv ox oy bs ->
  mo_offsets N (mo_of bs ox oy) a = Ok (offv ox oy bs).
Proof.
  intros H Ha. unfold mo_offsets, mo_of. cbn [paramSizes fsetStartFlags imageOffset_X0 imageOffset_Y0].
  assert (E0 : negb (ox =? 0)%Z || negb (oy =? 0)%Z = false -> offv ox oy bs = repeat Z0 (List.length (flat bs))).
  { intros E. apply orb_false_iff in E. rewrite !negb_false_iff, !Z.eqb_eq in E. destruct E as [-> ->].
    unfold offv. rewrite <- flat_zeroed. f_equal. unfold recentre, zeroed. rewrite map_map. reflexivity. }
  destruct Ha as [-> | ->].
  - rewrite <- flat_zeroed, <- (sizes_zeroed bs), <- (flags_zeroed bs).
    rewrite offsets_ok by now apply zeroed_ok.
    destruct (negb (ox =? 0)%Z || negb (oy =? 0)%Z); [reflexivity|].
    rewrite flat_zeroed, E0; auto.
  - unfold offv at 1. rewrite <- (sizes_zeroed bs), <- (flags_zeroed bs).
    rewrite <- (sizes_recentre (fun _ => (nofZ N ox, nofZ N oy)) (zeroed bs)),
            <- (flags_recentre (fun _ => (nofZ N ox, nofZ N oy)) (zeroed bs)).
    rewrite offsets_ok by now apply recentre_ok, zeroed_ok.
    rewrite recentre_twice. destruct (_ || _); reflexivity.
Qed.

Fixpoint map2 (f : T -> T -> T) (a b : list T) : list T :=
  match a, b with x :: s, y :: t => f x y :: map2 f s t | _, _ => [] end.
Lemma map2_len f a b : List.length a = List.length b -> List.length (map2 f a b) = List.length a.
Proof. revert b; induction a as [|x a IH]; intros [|y b] H; cbn in *; try discriminate; auto. Qed.
Lemma map2_get f a b i x y : nth_error a i = Some x -> nth_error b i = Some y -> nth_error (map2 f a b) i = Some (f x y).
Proof.
  revert b i; induction a as [|u a IH]; intros [|v b] [|i] H1 H2; cbn in *; try discriminate; auto.
  - injection H1 as ->; injection H2 as ->; reflexivity.
Qed.
Lemma map2_app f a1 a2 b1 b2 : List.length a1 = List.length b1 -> map2 f (a1 ++ a2) (b1 ++ b2) = map2 f a1 b1 ++ map2 f a2 b2.
Proof. revert b1; induction a1 as [|x a IH]; intros [|y b] H; cbn in *; try discriminate; auto. rewrite IH; auto. Qed.
Lemma map2_repeat f a z : map2 f a (repeat z (List.length a)) = map (fun x => f x z) a.
Proof. induction a; cbn; congruence. Qed.

Lemma flat_cons (b : blk T) bs : flat (b :: bs) = b_x b :: b_y b :: concat (b_funcs b) ++ flat bs.
Proof. reflexivity. Qed.

Lemma in_full_ok ox oy bs : forall v, List.length v = List.length (flat bs) ->
  map2 (nadd N) v (offv ox oy bs) = in_full_image N ox oy bs v.
Proof.
  induction bs as [|b bs IH]; intros v H.
  - destruct v; [reflexivity|discriminate].
  - rewrite flat_cons in H. cbn [List.length] in H. rewrite app_length in H.
    destruct v as [|x [|y r]]; cbn [List.length] in H; try discriminate.
    unfold offv. cbn [zeroed recentre map flat flat_map b_x b_y b_funcs fst snd app map2].
    unfold in_full_image. cbn [on_centres]. f_equal. f_equal.
    set (n := List.length (concat (b_funcs b))) in *.
    rewrite <- (firstn_skipn n r) at 1. rewrite concat_zeroed. fold n.
    assert (Hn : List.length (firstn n r) = n) by (rewrite firstn_length; lia).
    rewrite map2_app by (rewrite repeat_length; exact Hn). f_equal.
    + rewrite <- Hn at 2. apply map2_repeat.
    + apply IH. rewrite skipn_length. lia.
Qed.

Lemma in_full_len ox oy bs v : List.length v = List.length (flat bs) ->
  List.length (in_full_image N ox oy bs v) = List.length (flat bs).
Proof. intros H. rewrite <- in_full_ok by auto. rewrite map2_len; auto. now rewrite offv_len. Qed.

(** ---- the line of the file ---- *)
Definition hz_body ox oy (params : list T) (flag : bool) (sz : nat) (s : nat * list T) :=
  let '(indexOffset, line) := s in
  do st <- (if flag then
              let k := indexOffset in
              do px <- get params k;
              do py <- get params (k + 1)%nat;
              let x0 := nadd N px (nofZ N ox) in
              let y0 := nadd N py (nofZ N oy) in
              Ok ((indexOffset + 2)%nat, line ++ [x0; y0])
            else Ok (indexOffset, line));
  let '(indexOffset, line) := st in
  do line <- for_ sz (fun i line => do paramVal <- get params (indexOffset + i)%nat; Ok (line ++ [paramVal])) line;
  Ok ((indexOffset + sz)%nat, line).

Lemma hz_copy (params : list T) : forall mid pre post line, params = pre ++ mid ++ post ->
  for_ (List.length mid) (fun i line => do paramVal <- get params (List.length pre + i)%nat; Ok (line ++ [paramVal])) line
  = Ok (line ++ mid).
Proof.
  intros mid pre post line ->. unfold for_. 
  enough (G : forall m2 m1 l, mid = m1 ++ m2 ->
    for_from (List.length m1) (List.length m2) (fun i line => do paramVal <- get (pre ++ mid ++ post) (List.length pre + i)%nat; Ok (line ++ [paramVal])) l
    = Ok (l ++ m2)).
  { exact (G mid [] line eq_refl). }
  induction m2 as [|x m2 IH]; intros m1 l E; cbn [List.length for_from].
  - now rewrite app_nil_r.
  - replace (pre ++ mid ++ post) with ((pre ++ m1) ++ x :: m2 ++ post) at 1.
    2:{ rewrite E, <- !app_assoc. reflexivity. }
    rewrite get_app_eq by (rewrite app_length; reflexivity). cbn [bind].
    specialize (IH (m1 ++ [x]) (l ++ [x])). rewrite app_length in IH. cbn [List.length] in IH. rewrite Nat.add_1_r in IH.
    rewrite IH by (rewrite E, <- app_assoc; reflexivity). now rewrite <- app_assoc.
Qed.

Lemma hz_rest ox oy params : forall fs v pre post line,
  params = pre ++ v ++ post -> List.length v = List.length (concat fs) ->
  foldM (fun p s => hz_body ox oy params (fst p) (snd p) s) (map (fun g : list T => (false, List.length g)) fs) (List.length pre, line)
  = Ok (List.length pre + List.length (concat fs), line ++ v).
Proof.
  induction fs as [|f fs IH]; intros v pre post line E H; cbn [map foldM concat] in *.
  - destruct v; [|discriminate]. cbn. now rewrite Nat.add_0_r, app_nil_r.
  - rewrite app_length in H. cbn [fst snd]. unfold hz_body at 1. cbn [bind].
    pose (v1 := firstn (List.length f) v). pose (v2 := skipn (List.length f) v).
    assert (E1 : v = v1 ++ v2) by (symmetry; apply firstn_skipn).
    assert (L1 : List.length v1 = List.length f) by (unfold v1; rewrite firstn_length; lia).
    assert (L2 : List.length v2 = List.length (concat fs)) by (unfold v2; rewrite skipn_length; lia).
    rewrite <- L1. rewrite (@hz_copy params v1 pre (v2 ++ post)) by (rewrite E, E1, <- app_assoc; reflexivity).
    cbn [bind]. rewrite <- app_length.
    rewrite (IH v2 (pre ++ v1) post) by (auto; rewrite E, E1, <- !app_assoc; reflexivity).
    rewrite E1, <- app_assoc. f_equal. f_equal. rewrite !app_length. lia.
Qed.

Lemma hz_blocks ox oy params bs : Forall (fun b => b_funcs b <> []) bs -> forall v pre line,
  params = pre ++ v -> List.length v = List.length (flat bs) ->
  foldM (fun p s => hz_body ox oy params (fst p) (snd p) s) (zip bs) (List.length pre, line)
  = Ok (List.length params, line ++ in_full_image_exactly N ox oy bs v).
Proof.
  induction 1 as [|b bs Hb HF IH]; intros v pre line E H.
  - destruct v; [|discriminate]. cbn. rewrite E, !app_nil_r. reflexivity.
  - rewrite flat_cons in H. cbn [List.length] in H. rewrite app_length in H.
    destruct v as [|x [|y r]]; cbn [List.length] in H; try discriminate.
    unfold zip. cbn [flat_map]. fold (zip bs). destruct (b_funcs b) as [|f t] eqn:Ef; [congruence|].
    rewrite foldM_app. cbn [foldM fst snd]. unfold hz_body at 1.
    rewrite E at 1. rewrite get_app. cbn [bind].
    replace params with ((pre ++ [x]) ++ y :: r) at 1 by (rewrite E, <- app_assoc; reflexivity).
    rewrite get_app_eq by (rewrite app_length; reflexivity). cbn [bind].
    set (n := List.length (concat (f :: t))) in *.
    pose (r1 := firstn n r). pose (r2 := skipn n r).
    assert (E1 : r = r1 ++ r2) by (symmetry; apply firstn_skipn).
    assert (L1 : List.length r1 = n) by (unfold r1; rewrite firstn_length; lia).
    assert (L2 : List.length r2 = List.length (flat bs)) by (unfold r2; rewrite skipn_length; lia).
    assert (EP : params = (pre ++ [x; y]) ++ r1 ++ r2) by (rewrite E, E1, <- app_assoc; reflexivity).
    assert (EI : in_full_image_exactly N ox oy (b :: bs) (x :: y :: r)
      = nadd N x (nofZ N ox) :: nadd N y (nofZ N oy) :: r1 ++ in_full_image_exactly N ox oy bs r2).
    { unfold in_full_image_exactly. cbn [on_centres]. rewrite Ef. fold n. rewrite map_id. reflexivity. }
    rewrite EI. clear EI.
    (* first function *)
    pose (v1 := firstn (List.length f) r1). pose (v2 := skipn (List.length f) r1).
    assert (F1 : r1 = v1 ++ v2) by (symmetry; apply firstn_skipn).
    unfold n in L1. cbn [concat] in L1. rewrite app_length in L1.
    assert (M1 : List.length v1 = List.length f) by (unfold v1; rewrite firstn_length; lia).
    assert (M2 : List.length v2 = List.length (concat t)) by (unfold v2; rewrite skipn_length; lia).
    replace (List.length pre + 2) with (List.length (pre ++ [x; y])) by (rewrite app_length; reflexivity).
    rewrite <- M1. rewrite (@hz_copy params v1 (pre ++ [x; y]) (v2 ++ r2)) by (rewrite EP, F1, <- !app_assoc; reflexivity).
    cbn [bind]. rewrite <- app_length.
    rewrite (@hz_rest ox oy params t v2 ((pre ++ [x; y]) ++ v1) r2) by (auto; rewrite EP, F1, <- !app_assoc; reflexivity).
    cbn [bind]. rewrite <- M2, <- app_length.
    rewrite (IH r2 (((pre ++ [x; y]) ++ v1) ++ v2)) by (auto; rewrite EP, F1, <- !app_assoc; reflexivity).
    f_equal. f_equal. rewrite F1, <- !app_assoc. reflexivity.
Qed.

Lemma horizontal_ok ox oy bs v : blocks_ok bs -> List.length v = List.length (flat bs) ->
  PrintModelParamsHorizontalString N (mo_of bs ox oy) v = Ok (in_full_image_exactly N ox oy bs v).
Proof.
  intros [_ HF] H. unfold PrintModelParamsHorizontalString, mo_of. cbn [paramSizes fsetStartFlags imageOffset_X0 imageOffset_Y0].
  rewrite (@for_ext _ _ (fun n s => do flag <- get (flag_list bs) n; do sz <- get (sizes bs) n; hz_body ox oy v flag sz s)).
  - rewrite loop_zip. pose proof (@hz_blocks ox oy v bs HF v [] [] eq_refl H) as E. cbn [List.length app] in E. rewrite E. reflexivity.
  - intros i [o l] Hi. unfold hz_body. destruct (get (flag_list bs) i) as [fl| | |] eqn:Ef; try reflexivity. cbn [bind].
    destruct (@get_lt _ (sizes bs) i Hi) as (sz & Es). rewrite Es. cbn [bind]. reflexivity.
Qed.

(** ---- starting vector ---- *)
Lemma copy_start_ok (best pv : list T) : List.length pv = List.length best ->
  copy_start (List.length best) best pv = Ok best.
Proof.
  intros H. unfold copy_start.
  destruct (@for_inv _ (fun i p => List.length p = List.length best /\
       forall j, nth_error p j = if j <? i then nth_error best j else nth_error pv j)
     (fun i p => do x <- get best i; set p i x) (List.length best) pv)
    as (s & E & L & P).
  - split; auto.
  - intros i s Hi (L & P). destruct (@get_lt _ best _ Hi) as (x & Ex). rewrite Ex. cbn [bind].
    rewrite set_lt by lia. eexists. split; [reflexivity|]. split; [now rewrite upd_length|].
    intros j. rewrite nth_error_upd, L, P. apply get_Ok_iff in Ex.
    replace (i <? List.length best) with true by (symmetry; now apply Nat.ltb_lt). rewrite andb_true_r.
    destruct (Nat.eqb_spec i j).
    + subst j. replace (i <? S i) with true by (symmetry; apply Nat.ltb_lt; lia). auto.
    + destruct (Nat.ltb_spec j i), (Nat.ltb_spec j (S i)); auto; lia.
  - rewrite E. f_equal. apply list_eq_nth. intros j. rewrite P.
    destruct (Nat.ltb_spec j (List.length best)) as [|Hj]; auto.
    rewrite (proj2 (nth_error_None pv j)), (proj2 (nth_error_None best j)); auto; lia.
Qed.

(** ---- storing a fit ---- *)
Lemma store_ok (k n : nat) (v o : list T) (col : nat -> list T) (z : T) :
  List.length v = List.length o -> (forall i, List.length (col i) = k) -> k < n ->
  for_ (List.length v) (fun i array =>
        do p <- get v i;
        do o <- get o i;
        do row <- get array i;
        do row <- set row k (nadd N p o);
        set array i row) (map (fun i => col i ++ repeat z (n - k)) (seq 0 (List.length v)))
  = Ok (map (fun i => (col i ++ [nth i (map2 (nadd N) v o) z]) ++ repeat z (n - S k)) (seq 0 (List.length v))).
Proof.
  intros Hl Hc Hk.
  destruct (@for_inv _ (fun i a => a = map (fun j => if j <? i then (col j ++ [nth j (map2 (nadd N) v o) z]) ++ repeat z (n - S k)
                                                     else col j ++ repeat z (n - k)) (seq 0 (List.length v)))
     (fun i array =>
        do p <- get v i;
        do o <- get o i;
        do row <- get array i;
        do row <- set row k (nadd N p o);
        set array i row) (List.length v) (map (fun i => col i ++ repeat z (n - k)) (seq 0 (List.length v)))) as (s & E & P).
  - reflexivity.
  - intros i s Hi ->. destruct (@get_lt _ v _ Hi) as (x & Ex). rewrite Ex. cbn [bind].
    rewrite Hl in Hi. destruct (@get_lt _ o _ Hi) as (y & Ey). rewrite Ey. cbn [bind]. rewrite <- Hl in Hi.
    unfold get at 1. rewrite nth_error_seq_map by auto. rewrite Nat.ltb_irrefl. cbn [bind].
    assert (Es : set (col i ++ repeat z (n - k)) k (nadd N x y) = Ok (col i ++ nadd N x y :: repeat z (n - S k))).
    { replace (n - k) with (S (n - S k)) by lia. cbn [repeat]. now rewrite (@set_app _ _ _ _ _ k) by now rewrite Hc. }
    rewrite Es. cbn [bind].
    rewrite set_lt by now rewrite map_length, seq_length. eexists. split; [reflexivity|].
    rewrite upd_seq_map by auto. apply map_ext. intros j.
    apply get_Ok_iff in Ex. apply get_Ok_iff in Ey. pose proof (map2_get (nadd N) Ex Ey) as Em.
    apply nth_error_nth with (d := z) in Em.
    destruct (Nat.eqb_spec j i).
    + subst j. replace (i <? S i) with true by (symmetry; apply Nat.ltb_lt; lia). rewrite Em, <- app_assoc. reflexivity.
    + destruct (Nat.ltb_spec j i), (Nat.ltb_spec j (S i)); auto; lia.
  - rewrite E, P. f_equal. apply map_ext_in. intros j Hj. apply in_seq in Hj.
    replace (j <? List.length v) with true by (symmetry; apply Nat.ltb_lt; lia). reflexivity.
Qed.

Lemma store_flat_ok (v o : list T) : List.length v = List.length o -> forall arr pre old post k,
  arr = pre ++ old ++ post -> List.length old = List.length v -> List.length pre = k ->
  for_ (List.length v) (fun j array =>
        do p <- get v j;
        do o <- get o j;
        set array (k + j)%nat (nadd N p o)) arr
  = Ok (pre ++ map2 (nadd N) v o ++ post).
Proof.
  intros Hl arr pre old post k -> Ho Hk. subst k.
  destruct (@for_inv _ (fun i a => a = pre ++ firstn i (map2 (nadd N) v o) ++ skipn i old ++ post)
     (fun j array => do p <- get v j; do o <- get o j; set array (List.length pre + j)%nat (nadd N p o)) (List.length v)
     (pre ++ old ++ post)) as (s & E & P).
  - reflexivity.
  - intros i s Hi ->. destruct (@get_lt _ v _ Hi) as (x & Ex). rewrite Ex. cbn [bind].
    rewrite Hl in Hi. destruct (@get_lt _ o _ Hi) as (y & Ey). rewrite Ey. cbn [bind]. rewrite <- Hl in Hi.
    apply get_Ok_iff in Ex. apply get_Ok_iff in Ey. pose proof (map2_get (nadd N) Ex Ey) as Em.
    destruct (skipn i old) as [|q t] eqn:Es.
    { apply (f_equal (@List.length T)) in Es. rewrite skipn_length in Es. cbn in Es. lia. }
    cbn [app].
    replace (pre ++ firstn i (map2 (nadd N) v o) ++ q :: t ++ post) with ((pre ++ firstn i (map2 (nadd N) v o)) ++ q :: t ++ post)
      by now rewrite <- app_assoc.
    rewrite set_app.
    2:{ rewrite app_length, firstn_length, map2_len by auto. lia. }
    eexists. split; [reflexivity|].
    assert (Et : t = skipn (S i) old).
    { change (S i) with (1 + i). rewrite Nat.add_comm. rewrite <- skipn_skipn_aux. rewrite Es. reflexivity. }
    rewrite <- Et, <- app_assoc. f_equal.
    assert (Ef : firstn (S i) (map2 (nadd N) v o) = firstn i (map2 (nadd N) v o) ++ [nadd N x y]).
    { clear -Em. revert i Em. generalize (map2 (nadd N) v o). induction l as [|h l IH]; intros [|i] Em; cbn in *; try discriminate.
      - injection Em as ->. reflexivity.
      - rewrite IH; auto. }
    rewrite Ef, <- app_assoc. reflexivity.
  - rewrite E, P. f_equal. rewrite firstn_all2 by (rewrite map2_len by auto; lia). rewrite skipn_all2 by lia. reflexivity.
Qed.

(** ---- the rounds ---- *)
Lemma rounds_S sample (fit : list T -> W -> Z * list T * W) best n w :
  rounds sample fit best (S n) w =
  (let '(l, w1) := rounds sample fit best n w in
   let '(st, v, w2) := fit best (sample w1) in (l ++ [(st, v)], w2)).
Proof.
  revert w; induction n as [|n IH]; intros w.
  - cbn. destruct (fit best (sample w)) as [[st v] w']. reflexivity.
  - change (rounds sample fit best (S (S n)) w) with
      (let '(status, v, w') := fit best (sample w) in
       let '(rest, w'') := rounds sample fit best (S n) w' in ((status, v) :: rest, w'')).
    change (rounds sample fit best (S n) w) with
      (let '(status, v, w') := fit best (sample w) in
       let '(rest, w'') := rounds sample fit best n w' in ((status, v) :: rest, w'')).
    destruct (fit best (sample w)) as [[st v] w']. rewrite IH.
    destruct (rounds sample fit best n w') as [l w1]. destruct (fit best (sample w1)) as [[st2 v2] w2]. reflexivity.
Qed.
Lemma rounds_len sample (fit : list T -> W -> Z * list T * W) best : keeps_length fit -> forall n w,
  Forall (fun o => List.length (snd o) = List.length best) (fst (rounds sample fit best n w)).
Proof.
  intros K. induction n as [|n IH]; intros w; [constructor|]. cbn. pose proof (K best (sample w)) as K1.
  destruct (fit best (sample w)) as [[st v] w']. specialize (IH w'). destruct (rounds sample fit best n w') as [l w1]. constructor; auto.
Qed.
Lemma rounds_count sample (fit : list T -> W -> Z * list T * W) best : forall n w,
  List.length (fst (rounds sample fit best n w)) = n.
Proof.
  induction n as [|n IH]; intros w; [reflexivity|]. cbn.
  destruct (fit best (sample w)) as [[st v] w']. specialize (IH w'). destruct (rounds sample fit best n w') as [l w1]. cbn in *. congruence.
Qed.
Lemma successes_app (a b : list (Z * list T)) : successes (a ++ b) = successes a ++ successes b.
Proof. unfold successes. rewrite filter_app, map_app. reflexivity. Qed.
Lemma successes_count (l : list (Z * list T)) : List.length (successes l) <= List.length l.
Proof. unfold successes. rewrite map_length. induction l as [|a l IH]; cbn; auto. destruct (0 <? fst a)%Z; cbn; lia. Qed.
Lemma successes_len n (l : list (Z * list T)) : Forall (fun o => List.length (snd o) = n) l ->
  Forall (fun v => List.length v = n) (successes l).
Proof.
  intros H. unfold successes. apply Forall_map. apply Forall_forall. intros o Ho. apply filter_In in Ho.
  rewrite Forall_forall in H. apply H, Ho.
Qed.

Lemma successes_one x (v : list T) : successes [(x, v)] = if (0 <? x)%Z then [v] else [].
Proof. unfold successes. cbn [filter fst]. destruct (0 <? x)%Z; reflexivity. Qed.

Variable e : env T W.
Variable st : Z.
Hypothesis keeps : keeps_length (run_fit e st).
Notation R := (rounds (MakeBootstrapSample e) (run_fit e st)).

Lemma column_snoc i S v : column Z0 i (S ++ [v]) = column Z0 i S ++ [nth i v Z0].
Proof. unfold column. rewrite map_app. reflexivity. Qed.

Lemma base_ok bs ox oy nIter save seed w : blocks_ok bs ->
  let '(status, w1) := UseBootstrap e (seed_generator e seed w) in
  (status < 0)%Z \/
  let '(outcomes, w2) := R (flat bs) nIter w1 in
  let good := successes outcomes in
  BootstrapErrorsBase N e (mo_of bs ox oy) (List.length (flat bs)) (flat bs) nIter st
    (repeat (repeat Z0 nIter) (List.length (flat bs))) save seed w =
  Ok (Z.of_nat (List.length good),
      map (fun i => column Z0 i (map (in_full_image N ox oy bs) good) ++ repeat Z0 (nIter - List.length good))
          (seq 0 (List.length (flat bs))),
      (if save then map (in_full_image_exactly N ox oy bs) good else []), w2).
Proof.
  intros Hb. unfold BootstrapErrorsBase. destruct (UseBootstrap e (seed_generator e seed w)) as [status w1].
  destruct (Z.ltb_spec status 0) as [Hs|Hs]; [now left|right].
  match goal with |- context [for_ nIter ?f ?s] => set (body := f); set (s0 := s) end.
  destruct (@for_inv _ (fun k s => let '(a, lines, c, pv, po, wk) := s in
      let '(l, w2) := R (flat bs) k w1 in let good := successes l in
      wk = w2 /\ c = List.length good /\ List.length pv = List.length (flat bs) /\
      (po = repeat Z0 (List.length (flat bs)) \/ po = offv ox oy bs) /\
      a = map (fun i => column Z0 i (map (in_full_image N ox oy bs) good) ++ repeat Z0 (nIter - List.length good))
          (seq 0 (List.length (flat bs))) /\
      lines = if save then map (in_full_image_exactly N ox oy bs) good else []) body nIter s0) as (s & E & P).
  - cbn. repeat split; auto.
    + apply repeat_length.
    + rewrite Nat.sub_0_r. clear. generalize 0. induction (List.length (flat bs)) as [|n IH]; intros k; cbn; auto. now rewrite <- (IH (S k)).
    + now destruct save.
  - intros k [[[[[a lines] c] pv] po] wk] Hk P. rewrite rounds_S.
    pose proof (rounds_len (MakeBootstrapSample e) (flat bs) keeps k w1) as RL.
    pose proof (rounds_count (MakeBootstrapSample e) (run_fit e st) (flat bs) k w1) as RC.
    destruct (R (flat bs) k w1) as [l w2]. cbn [fst] in RL, RC. destruct P as (-> & -> & Lpv & Hpo & -> & ->).
    unfold body. rewrite copy_start_ok by auto. cbn [bind].
    pose proof (keeps (flat bs) (MakeBootstrapSample e w2)) as KL.
    destruct (run_fit e st (flat bs) (MakeBootstrapSample e w2)) as [[status' v] w3]. cbn [fst snd] in KL.
    rewrite (mo_offsets_ok Hb Hpo). cbn [bind].
    pose proof (successes_count l) as SC.
    rewrite successes_app. rewrite (successes_one status' v).
    destruct (0 <? status')%Z.
    + pose proof (@store_ok (List.length (successes l)) nIter v (offv ox oy bs)
        (fun i => column Z0 i (map (in_full_image N ox oy bs) (successes l))) Z0) as SO.
      rewrite KL in SO. rewrite SO; clear SO.
      2:{ now rewrite offv_len. } 2:{ intros i. unfold column. now rewrite !map_length. } 2:{ lia. }
      cbn [bind map snd]. rewrite (in_full_ok ox oy KL).
      assert (LL : (if save then do line <- PrintModelParamsHorizontalString N (mo_of bs ox oy) v;
                     Ok ((if save then map (in_full_image_exactly N ox oy bs) (successes l) else []) ++ [line])
                   else Ok (if save then map (in_full_image_exactly N ox oy bs) (successes l) else []))
        = Ok (if save then map (in_full_image_exactly N ox oy bs) (successes l ++ [v]) else [])).
      { destruct save; auto. rewrite horizontal_ok by auto. cbn [bind]. rewrite map_app. reflexivity. }
      rewrite LL. cbn [bind]. eexists. split; [reflexivity|]. cbv beta iota.
      rewrite app_length. cbn [List.length]. rewrite Nat.add_1_r. repeat split; auto.
      apply map_ext. intros i. rewrite map_app. cbn [map]. rewrite column_snoc. reflexivity.
    + cbn [map]. rewrite app_nil_r. eexists. split; [reflexivity|]. cbv beta iota. repeat split; auto.
  - rewrite E. cbn [bind]. destruct s as [[[[[a lines] c] pv] po] wk].
    destruct (R (flat bs) nIter w1) as [l w2]. destruct P as (-> & -> & _ & _ & -> & ->). reflexivity.
Qed.

Lemma flat_array_ok bs ox oy nIter seed w arr : blocks_ok bs -> List.length arr = nIter * List.length (flat bs) ->
  let '(status, w1) := UseBootstrap e (seed_generator e seed w) in
  (status < 0)%Z \/
  let '(outcomes, w2) := R (flat bs) nIter w1 in
  let good := successes outcomes in
  BootstrapErrorsArrayOnly N e (mo_of bs ox oy) (List.length (flat bs)) (flat bs) nIter st arr seed w =
  Ok (Z.of_nat (List.length good),
      concat (map (in_full_image N ox oy bs) good) ++ skipn (List.length good * List.length (flat bs)) arr, w2).
Proof.
  intros Hb Ha. unfold BootstrapErrorsArrayOnly. destruct (UseBootstrap e (seed_generator e seed w)) as [status w1].
  destruct (Z.ltb_spec status 0) as [Hs|Hs]; [now left|right].
  match goal with |- context [for_ nIter ?f ?s] => set (body := f); set (s0 := s) end.
  destruct (@for_inv _ (fun k s => let '(a, c, pv, po, wk) := s in
      let '(l, w2) := R (flat bs) k w1 in let good := successes l in
      wk = w2 /\ c = List.length good /\ List.length pv = List.length (flat bs) /\
      (po = repeat Z0 (List.length (flat bs)) \/ po = offv ox oy bs) /\
      a = concat (map (in_full_image N ox oy bs) good) ++ skipn (List.length good * List.length (flat bs)) arr) body nIter s0) as (s & E & P).
  - cbn. repeat split; auto. apply repeat_length.
  - intros k [[[[a c] pv] po] wk] Hk P. rewrite rounds_S.
    pose proof (rounds_len (MakeBootstrapSample e) (flat bs) keeps k w1) as RL.
    pose proof (rounds_count (MakeBootstrapSample e) (run_fit e st) (flat bs) k w1) as RC.
    destruct (R (flat bs) k w1) as [l w2]. cbn [fst] in RL, RC. destruct P as (-> & -> & Lpv & Hpo & ->).
    unfold body. rewrite copy_start_ok by auto. cbn [bind].
    pose proof (keeps (flat bs) (MakeBootstrapSample e w2)) as KL.
    destruct (run_fit e st (flat bs) (MakeBootstrapSample e w2)) as [[status' v] w3]. cbn [fst snd] in KL.
    rewrite (mo_offsets_ok Hb Hpo). cbn [bind].
    pose proof (successes_count l) as SC. pose proof (successes_len RL) as SL.
    rewrite successes_app. rewrite (successes_one status' v).
    assert (CL : List.length (concat (map (in_full_image N ox oy bs) (successes l))) = List.length (successes l) * List.length (flat bs)).
    { clear -SL. induction SL as [|x t Hx _ IH]; auto. cbn [map concat List.length]. rewrite app_length, IH, in_full_len by auto. reflexivity. }
    destruct (0 <? status')%Z.
    + set (K := List.length (flat bs)) in *. set (c := List.length (successes l)) in *.
      assert (Ec : c * K + K <= nIter * K) by nia.
      pose proof (@store_flat_ok v (offv ox oy bs)) as SO. rewrite offv_len in SO. fold K in SO. specialize (SO KL). rewrite KL in SO.
      rewrite (SO _ (concat (map (in_full_image N ox oy bs) (successes l))) (firstn K (skipn (c * K) arr)) (skipn K (skipn (c * K) arr))).
      2:{ now rewrite firstn_skipn. } 2:{ rewrite firstn_length, skipn_length. lia. } 2:{ exact CL. }
      cbn [bind map snd]. eexists. split; [reflexivity|]. cbv beta iota.
      rewrite app_length. cbn [List.length]. rewrite Nat.add_1_r. fold c. repeat split; auto.
      rewrite (in_full_ok ox oy KL). rewrite map_app, concat_app. cbn [map concat]. rewrite app_nil_r, <- !app_assoc. f_equal. f_equal.
      rewrite skipn_skipn_aux. f_equal. cbn. lia.
    + cbn [map]. rewrite app_nil_r. eexists. split; [reflexivity|]. cbv beta iota. repeat split; auto.
  - rewrite E. cbn [bind]. destruct s as [[[[a c] pv] po] wk].
    destruct (R (flat bs) nIter w1) as [l w2]. destruct P as (-> & -> & _ & _ & ->). reflexivity.
Qed.
End Proof.

(** ---- the printed summary ---- *)
Section Summary.
Variable T : Type.
Variable N : Num T.
Notation Z0 := (nofZ N 0).

Lemma sigmas_ok (array : list (list T)) n : n <= List.length array ->
  for_ n (fun i s => do row <- get array i; Ok (s ++ [StandardDeviation N row])) [] =
  Ok (map (StandardDeviation N) (firstn n array)).
Proof.
  intros H. destruct (@for_inv _ (fun i s => s = map (StandardDeviation N) (firstn i array))
    (fun i s => do row <- get array i; Ok (s ++ [StandardDeviation N row])) n []) as (s & E & P).
  - reflexivity.
  - intros i s Hi ->. destruct (@get_lt _ array i) as (r & Er); [lia|]. rewrite Er. cbn [bind]. eexists. split; [reflexivity|].
    apply get_Ok_iff in Er. clear -Er. revert array Er. induction i as [|i IH]; intros [|h a] Er; cbn in *; try discriminate.
    + injection Er as ->. reflexivity.
    + now rewrite <- IH.
  - now rewrite E, P.
Qed.

Lemma summary_ok qsort best array fixed labels n :
  List.length array = n -> List.length best = n -> List.length fixed = n -> List.length labels = n ->
  (forall i f row, nth_error fixed i = Some f -> nth_error array i = Some row -> f = 0%Z ->
     exists ci, ConfidenceInterval N qsort row = Ok ci) ->
  exists lines, PrintBootstrapSummary N qsort best array n fixed labels = Ok lines /\ List.length lines = n /\
    forall i l b row f, nth_error labels i = Some l -> nth_error best i = Some b -> nth_error array i = Some row ->
      nth_error fixed i = Some f ->
      (f <> 0%Z -> nth_error lines i = Some (Fixed l b)) /\
      (f = 0%Z -> forall lo hi sorted, ConfidenceInterval N qsort row = Ok (lo, hi, sorted) ->
         nth_error lines i = Some (Stat l b (nsub N hi b) (nsub N b lo) lo hi (ndiv N (nsub N hi lo) (nofZ N 2))
                                        (Mean N sorted) (StandardDeviation N row))).
Proof.
  intros La Lb Lf Ll HC. unfold PrintBootstrapSummary. rewrite sigmas_ok by lia. cbn [bind].
  rewrite firstn_all2 by lia.
  match goal with |- context [for_ n ?f ?s] => set (body := f); set (s0 := s) end.
  destruct (@for_inv _ (fun k s => let '(lines, a) := s in
     List.length lines = k /\ List.length a = n /\ (forall i, k <= i -> nth_error a i = nth_error array i) /\
     forall i l b row f, i < k -> nth_error labels i = Some l -> nth_error best i = Some b -> nth_error array i = Some row ->
      nth_error fixed i = Some f ->
      (f <> 0%Z -> nth_error lines i = Some (Fixed l b)) /\
      (f = 0%Z -> forall lo hi sorted, ConfidenceInterval N qsort row = Ok (lo, hi, sorted) ->
         nth_error lines i = Some (Stat l b (nsub N hi b) (nsub N b lo) lo hi (ndiv N (nsub N hi lo) (nofZ N 2))
                                        (Mean N sorted) (StandardDeviation N row)))) body n s0) as (s & E & P).
  - unfold s0. repeat split; auto; lia.
  - intros k [lines a] Hk (L1 & L2 & HA & HL). unfold body, summary_line.
    destruct (nth_error fixed k) as [f|] eqn:Ef; [|apply nth_error_None in Ef; lia].
    destruct (nth_error array k) as [row|] eqn:Er; [|apply nth_error_None in Er; lia].
    destruct (nth_error best k) as [b|] eqn:Eb; [|apply nth_error_None in Eb; lia].
    destruct (nth_error labels k) as [l|] eqn:El; [|apply nth_error_None in El; lia].
    assert (GZ : forall A (x : list A), getZ x (Z.of_nat k) = get x k).
    { intros A x. unfold getZ. rewrite (proj2 (Z.ltb_ge _ _)) by lia. now rewrite Nat2Z.id. }
    rewrite !GZ. unfold get at 1. rewrite Ef. cbn [bind].
    assert (HN : forall ln, List.length (lines ++ [ln]) = S k) by (intros; rewrite app_length; cbn; lia).
    assert (HO : forall ln i l b row f, i < S k -> i <> k ->
       nth_error labels i = Some l -> nth_error best i = Some b -> nth_error array i = Some row -> nth_error fixed i = Some f ->
      (f <> 0%Z -> nth_error (lines ++ [ln]) i = Some (Fixed l b)) /\
      (f = 0%Z -> forall lo hi sorted, ConfidenceInterval N qsort row = Ok (lo, hi, sorted) ->
         nth_error (lines ++ [ln]) i = Some (Stat l b (nsub N hi b) (nsub N b lo) lo hi (ndiv N (nsub N hi lo) (nofZ N 2))
                                        (Mean N sorted) (StandardDeviation N row)))).
    { intros. rewrite nth_error_app1 by lia. apply HL; auto; lia. }
    destruct (Z.eqb_spec f 0) as [F0|F0].
    + unfold get at 1. rewrite (HA k), Er by lia. cbn [bind].
      destruct (HC k f row Ef Er F0) as ([[lo hi] sorted] & Ec). rewrite Ec. cbn [bind].
      unfold setZ. rewrite (proj2 (Z.ltb_ge _ _)) by lia. rewrite Nat2Z.id, set_lt by lia. cbn [bind].
      unfold get at 1. rewrite Eb. cbn [bind]. unfold get at 1. rewrite nth_error_map, Er. cbn [option_map bind].
      unfold get at 1. rewrite El. cbn [bind]. eexists. split; [reflexivity|]. cbv beta iota.
      split; [apply HN|]. split; [now rewrite upd_length|]. split.
      * intros i Hi. rewrite nth_error_upd. destruct (Nat.eqb_spec k i); [lia|]. cbn. apply HA. lia.
      * intros i l' b' row' f' Hi H1 H2 H3 H4. destruct (Nat.eq_dec i k) as [->|Hn]; [|eapply HO; eauto].
        rewrite nth_error_app2, L1, Nat.sub_diag by lia. cbn [nth_error]. split; [congruence|].
        intros _ lo' hi' so' H5. assert (row' = row) by congruence. subst row'. rewrite Ec in H5. apply Ok_inj in H5. congruence.
    + unfold get at 1. rewrite Eb. cbn [bind]. unfold get at 1. rewrite El. cbn [bind].
      eexists. split; [reflexivity|]. cbv beta iota.
      split; [apply HN|]. split; [auto|]. split.
      * intros i Hi. apply HA. lia.
      * intros i l' b' row' f' Hi H1 H2 H3 H4. destruct (Nat.eq_dec i k) as [->|Hn]; [|eapply HO; eauto].
        rewrite nth_error_app2, L1, Nat.sub_diag by lia. cbn [nth_error]. split; [congruence|]. intros; congruence.
  - rewrite E. cbn [bind]. destruct s as [lines a]. destruct P as (L1 & L2 & _ & HL). exists lines. cbn [fst].
    split; [reflexivity|]. split; [auto|]. intros i l b row f H1 H2 H3 H4. eapply HL; eauto.
    assert (i < List.length labels) by (apply nth_error_Some; congruence). lia.
Qed.

(** multimfit *)
Lemma summary_line_label qsort best sg fixed array i x : summary_line N qsort best sg fixed Undef array i <> Ok x.
Proof.
  unfold summary_line. destruct (getZ fixed i) as [f| | |]; cbn [bind]; try discriminate.
  destruct (f =? 0)%Z.
  - destruct (getZ array i); cbn [bind]; try discriminate.
    destruct (ConfidenceInterval N qsort a) as [[[lo hi] so]| | |]; cbn [bind]; try discriminate.
    destruct (setZ array i so); cbn [bind]; try discriminate. destruct (getZ best i); cbn [bind]; try discriminate.
    destruct (getZ sg i); cbn [bind]; discriminate.
  - destruct (getZ best i); cbn [bind]; discriminate.
Qed.
Lemma summary_line_neg qsort best sg fixed l array i x : (i < 0)%Z -> summary_line N qsort best sg fixed l array i <> Ok x.
Proof. intros H. unfold summary_line, getZ at 1. rewrite (proj2 (Z.ltb_lt _ _)) by lia. discriminate. Qed.

Lemma for_post {S} (P : nat -> S -> Prop) (f : nat -> S -> res S) n s x :
  for_ n f s = Ok x -> P 0 s -> (forall i s s', i < n -> P i s -> f i s = Ok s' -> P (Datatypes.S i) s') -> P n x.
Proof.
  intros H H0 HS. unfold for_ in H.
  enough (G : forall m k s, k + m = n -> P k s -> for_from k m f s = Ok x -> P n x) by (eapply (G n 0); eauto).
  clear s H H0. induction m as [|m IH]; intros k s E Pk H; cbn in H.
  - apply Ok_inj in H. subst. now rewrite Nat.add_0_r.
  - destruct (f k s) as [s'| | |] eqn:Ef; cbn in H; try discriminate.
    apply (IH (Datatypes.S k) s'); auto; [lia|]. eapply HS; eauto. lia.
Qed.

Lemma multi_index qsort best sg fixed (st : list (line T) * list (list T) * Z) x :
  for_ N_IMAGE_PARAMS (fun j '(lines, array, i) =>
      let i := (i + 1)%Z in
      do la <- summary_line N qsort best sg fixed (getZ imageParamLabels i) array i;
      let '(l, array) := la in Ok (lines ++ [l], array, i)) st = Ok x ->
  snd x = (snd st + 5)%Z /\ List.length (fst (fst x)) = List.length (fst (fst st)) + 5 /\ (snd st + 1 < 5)%Z.
Proof.
  intros H.
  assert (G : snd x = (snd st + Z.of_nat N_IMAGE_PARAMS)%Z /\ List.length (fst (fst x)) = List.length (fst (fst st)) + N_IMAGE_PARAMS /\
    (0 < N_IMAGE_PARAMS -> (snd st + 1 < 5)%Z)).
  { pattern N_IMAGE_PARAMS, x. refine (for_post H _ _).
    - repeat split; lia.
    - intros j [[lines a] i] s' Hj (P1 & P2 & P3) E. cbn [fst snd] in *. cbv zeta in E.
      destruct (summary_line N qsort best sg fixed (getZ imageParamLabels (i + 1)) a (i + 1)) as [[l a']| | |] eqn:Es; cbn [bind] in E; try discriminate.
      apply Ok_inj in E. subst s'. cbn [fst snd]. rewrite app_length. cbn [List.length]. repeat split; [lia|lia|].
      intros _. destruct (Z_lt_le_dec (snd st + 1) 5) as [Hl|Hl]; auto. exfalso.
      destruct j as [|j]; [|assert (snd st + 1 < 5)%Z by (apply P3; lia); lia].
      assert (Hi : getZ imageParamLabels (i + 1) = Undef).
      { unfold getZ. rewrite (proj2 (Z.ltb_ge _ _)) by lia. apply get_ge. cbn [List.length imageParamLabels]. lia. }
      rewrite Hi in Es. exact (summary_line_label Es). }
  unfold N_IMAGE_PARAMS in G. destruct G as (G1 & G2 & G3). repeat split; [exact G1|exact G2|apply G3; lia].
Qed.

Lemma multi_ok_only_two qsort best array nParams nImages fixed labels lines :
  PrintBootstrapSummaryMultimfit N qsort best array nParams nImages fixed labels = Ok lines ->
  (1 <= nImages)%Z -> 0 < nParams ->
  nImages = 2%Z /\ (4 <= nParams -> List.length lines = nParams + 1).
Proof.
  intros H H1 Hn. unfold PrintBootstrapSummaryMultimfit in H.
  destruct (for_ nParams _ []) as [sg| | |]; cbn [bind] in H; try discriminate.
  destruct (forZ 1 nImages _ _) as [[[l1 a1] il]| | |] eqn:E1; cbn [bind] in H; try discriminate.
  destruct (forZ il (Z.of_nat nParams) _ _) as [[l2 a2]| | |] eqn:E2; cbn [bind] in H; try discriminate.
  apply Ok_inj in H. cbn [fst] in H. subst l2.
  unfold forZ in E1, E2.
  assert (G : il = (-1 + 5 * Z.of_nat (Z.to_nat (nImages - 1)))%Z /\ List.length l1 = 5 * Z.to_nat (nImages - 1) /\
              (Z.to_nat (nImages - 1) <= 1)).
  {     refine (@for_post _ (fun k (s : list (line T) * list (list T) * Z) => snd s = (-1 + 5 * Z.of_nat k)%Z /\ List.length (fst (fst s)) = 5 * k /\ k <= 1)
      _ _ _ (l1, a1, il) E1 _ _).
    - cbn. repeat split; lia.
    - intros k s s' Hk (P1 & P2 & P3) E. apply multi_index in E. destruct E as (Q1 & Q2 & Q3). repeat split; lia. }
  destruct G as (G1 & G2 & G3).
  assert (G4 : nImages = 2%Z).
  { destruct (Z.eq_dec nImages 2); auto. exfalso. assert (nImages = 1)%Z by lia. subst nImages. cbn in G1. subst il.
    destruct (Z.to_nat (Z.of_nat nParams - -1)) as [|q] eqn:Eq; [lia|]. unfold for_ in E2. cbn [for_from] in E2.
    destruct (summary_line N qsort best sg fixed (getZ labels (-1 + Z.of_nat 0)) a1 (-1 + Z.of_nat 0)) as [x| | |] eqn:Es.
    - apply summary_line_neg in Es; [auto|cbn; lia].
    - cbn [bind] in E2. discriminate.
    - cbn [bind] in E2. discriminate.
    - cbn [bind] in E2. discriminate. }
  split; auto. intros Hp. subst nImages.
  assert (G5 : List.length lines = List.length l1 + Z.to_nat (Z.of_nat nParams - il)).
  { refine (@for_post _ (fun k (s : list (line T) * list (list T)) => List.length (fst s) = List.length l1 + k)
      _ _ _ (lines, a2) E2 _ _).
    - cbn. lia.
    - intros k [l a] s' Hk P1 E. destruct (summary_line _ _ _ _ _ _ _ _) as [[q aq]| | |]; cbn [bind] in E; try discriminate.
      apply Ok_inj in E. subst s'. cbn [fst] in *. rewrite app_length. cbn. lia. }
  rewrite G5, G2. change (Z.to_nat (2 - 1)) with 1 in *. lia.
Qed.
End Summary.
