From Coq Require Import Ascii String List ZArith Lia Bool Reals.
From Verif Require Import Base StrUtil_Model StrUtil_Spec StrUtil_Proof Config_Model Config_Spec Config_Proof ConfigL_Spec ConfigL_Proof.
From Verif Require Import Params_Model Params_Spec Params_Proof Build_Model Save_Model Save_Spec Build_Spec Build_Proof Save_Proof Save_Final.
From Verif Require Import Table_Model Table_Spec.
Set Implicit Arguments. Unset Strict Implicit.
Local Open Scope list_scope.

(** ---- concatenating tokenised texts ---- *)
Lemma tokens_gap g s ts : Forall Blank g -> Tokens Blank s ts -> Tokens Blank (g ++ s) ts.
Proof.
  intros Hg H. inversion H as [g' Hg'|g' t Hg' Ht HF|g' t c r ts' Hg' Ht HF Hc HT]; subst.
  - apply Tok_none. apply Forall_app. split; auto.
  - rewrite app_assoc. apply Tok_last; auto. apply Forall_app. split; auto.
  - rewrite app_assoc. apply Tok_more; auto. apply Forall_app. split; auto.
Qed.
Definition EndsBlank (s : text) : Prop := s = [] \/ exists r c, s = r ++ [c] /\ Blank c.
Definition StartsBlank (s : text) : Prop := match s with [] => True | c :: _ => Blank c end.
Lemma tokens_nil ts : Tokens Blank [] ts -> ts = [].
Proof.
  intros H. remember (@nil ascii) as e eqn:E. destruct H as [g Hg|g t Hg Ht HF|g t c r ts Hg Ht HF Hc HT]; auto; exfalso.
  - apply app_eq_nil in E. destruct E; congruence.
  - apply app_eq_nil in E. destruct E as [_ E]. apply app_eq_nil in E. destruct E; congruence.
Qed.
Lemma NoDup_app {A} (a b : list A) : NoDup a -> NoDup b -> (forall x, In x a -> ~ In x b) -> NoDup (a ++ b).
Proof.
  induction 1 as [|x a Hx Ha IH]; intros Hb HD; cbn; auto. constructor.
  - intros Q. apply in_app_or in Q. destruct Q; [auto|]. apply (HD x); auto. now left.
  - apply IH; auto. intros y Hy. apply HD. now right.
Qed.
Lemma last_snoc (a b : text) x y : a ++ [x] = b ++ [y] -> x = y.
Proof. intros H. apply app_inj_tail in H. tauto. Qed.
Lemma tokens_app s1 ts1 : Tokens Blank s1 ts1 -> forall s2 ts2, Tokens Blank s2 ts2 -> EndsBlank s1 \/ StartsBlank s2 -> Tokens Blank (s1 ++ s2) (ts1 ++ ts2).
Proof.
  induction 1 as [g Hg|g t Hg Ht HF|g t c r ts Hg Ht HF Hc HT IH]; intros s2 ts2 H2 HS.
  - apply tokens_gap; auto.
  - assert (StartsBlank s2).
    { destruct HS as [[E|(r & c & E & Hc)]|]; auto; exfalso.
      - apply app_eq_nil in E. destruct E; congruence.
      - destruct (exists_last Ht) as (t' & x & ->). rewrite app_assoc in E. apply last_snoc in E. subst.
        unfold only in HF. apply Forall_app in HF. destruct HF as [_ HF]. inversion HF; subst. contradiction. }
    destruct s2 as [|c r].
    + apply tokens_nil in H2. subst. rewrite app_nil_r. apply Tok_last; auto.
    + rewrite <- app_assoc. cbn [app]. apply Tok_more; auto.
  - rewrite <- !app_assoc. cbn [app]. apply Tok_more; auto. apply (IH s2 ts2 H2).
    destruct HS as [[E|(r' & c' & E & Hc')]|]; auto.
    + exfalso. apply app_eq_nil in E. destruct E as [_ E]. destruct t; [congruence|discriminate].
    + left. right. assert (c :: r <> []) as Q by discriminate. destruct (exists_last Q) as (r2 & x & E2). exists r2, x. split; auto.
      rewrite E2 in E. rewrite !app_assoc in E. apply last_snoc in E. now subst.
Qed.

(** a word without blanks *)
Definition Wd (w : text) : Prop := w <> [] /\ Forall (fun c => ~ Blank c) w.
Lemma tokens_word w : Wd w -> Tokens Blank w [w].
Proof. intros [H HF]. apply (@Tok_last Blank [] w); auto. constructor. Qed.
Lemma ends_blank s g : g <> [] -> Forall Blank g -> EndsBlank (s ++ g).
Proof.
  intros Hn HF. destruct (exists_last Hn) as (g' & c & ->). right. exists (s ++ g'), c. split; [now rewrite app_assoc|].
  apply Forall_app in HF. destruct HF as [_ HF]. now inversion HF.
Qed.
Lemma tokens_word_gap w g : Wd w -> g <> [] -> Forall Blank g -> Tokens Blank (w ++ g) [w] /\ EndsBlank (w ++ g).
Proof.
  intros Hw Hn Hg. split; [|apply ends_blank; auto].
  apply (@tokens_app w [w] (tokens_word Hw) g []); [now apply Tok_none|]. right. destruct g; [congruence|]. inversion Hg; auto.
Qed.
Lemma ends_app a b : EndsBlank b -> b <> [] -> EndsBlank (a ++ b).
Proof. intros [->|(r & c & -> & Hc)] Hn; [congruence|]. right. exists (a ++ r), c. split; [now rewrite app_assoc|exact Hc]. Qed.

Lemma digit_not_blank c v : DigitVal c v -> ~ Blank c /\ c <> NUL /\ c <> ascii_of_nat 95.
Proof.
  intros [Hv E]. assert (48 <= nat_of_ascii c <= 57) by lia. split; [|split; intros ->; cbn in *; lia].
  intros [<-|[<-|[<-|[]]]]; cbn in *; lia.
Qed.
Lemma digits_chars s v : Digits s v -> s <> [] /\ Forall (fun c => ~ Blank c /\ c <> NUL /\ c <> ascii_of_nat 95) s.
Proof.
  induction 1 as [c v H|s v c w Hs [IHn IH] Hc].
  - split; [discriminate|]. constructor; [exact (digit_not_blank H)|constructor].
  - split; [destruct s; discriminate|]. apply Forall_app. split; auto. constructor; [exact (digit_not_blank Hc)|constructor].
Qed.

Section T1.
  Variable T : Type.
  Variable dec : nat -> text.
  Hypothesis HD : DecOK dec.
  Implicit Types f : sfunc T.
  Implicit Types bs : list (sblock T).
  Notation small n := (Z.of_nat n <= 2 ^ 31 - 1)%Z.

  Lemma own_names_of f : own_names f = names_of f. Proof. reflexivity. Qed.

  Lemma tagged_word name n : small n -> GoodName name -> Wd (tagged dec name n) /\ NoNul (tagged dec name n) /\ List.length (tagged dec name n) <= 100.
  Proof.
    intros Hn ((Hne & HF) & _ & HO & HL). destruct (HD Hn) as [D L]. destruct (digits_chars D) as [Dn DF]. unfold tagged. split; [split|split].
    - destruct name; [congruence|discriminate].
    - apply Forall_app. split; [eapply Forall_impl; [|exact HF]; cbn; tauto|]. apply Forall_app. split.
      + constructor; [|constructor]. intros [Q|[Q|[Q|[]]]]; discriminate Q.
      + eapply Forall_impl; [|exact DF]. cbn. tauto.
    - apply NoNul_app; [now apply OneLine_NoNul|]. apply NoNul_app; [constructor; [discriminate|constructor]|].
      eapply Forall_impl; [|exact DF]. cbn. tauto.
    - rewrite !app_length. cbn [list_ascii_of_string List.length]. lia.
  Qed.

  (** the loop over functions, with the number of the function *)
  Definition gh_body (m : built) (p : bool * fobj * nat) (st : nat * nat * str) : res (nat * nat * str) :=
    let '(indexOffset, nSet, headerLine) := st in
    do c <- (if fst (fst p) then
               do s <- PrintToString (lit "X0_" ++ dec (S nSet) ++ TAB ++ TAB ++ lit "Y0_" ++ dec (S nSet) ++ TAB ++ TAB);
               Ok (indexOffset + 2, S nSet, headerLine ++ s)
             else Ok (indexOffset, nSet, headerLine));
    let '(indexOffset, nSet, headerLine) := c in
    do headerLine <- for_ (List.length (GetParameterNames (snd (fst p)))) (fun i headerLine =>
         do paramName <- GetParameterName m (indexOffset + i);
         do s <- PrintToString (c_str paramName ++ lit "_" ++ dec (snd p + 1) ++ TAB);
         Ok (headerLine ++ s)) headerLine;
    Ok (indexOffset + List.length (GetParameterNames (snd (fst p))), nSet, headerLine).

  Lemma loop_flags_n {S} (body : bool * fobj * nat -> S -> res S) (flags : list bool) (os : list fobj) s :
    List.length flags = List.length os ->
    for_ (List.length os) (fun n s => do flag <- get flags n; do o <- get os n; body (flag, o, n) s) s
    = foldM body (combine (combine flags os) (seq 0 (List.length os))) s.
  Proof.
    intros HL. unfold for_. set (l := combine (combine flags os) (seq 0 (List.length os))).
    assert (LL : List.length l = List.length os) by (unfold l; rewrite !combine_length, seq_length; lia). rewrite <- LL.
    apply for_foldM. intros i p t Hi. cbn [Nat.add].
    assert (H : nth_error flags i = Some (fst (fst p)) /\ nth_error os i = Some (snd (fst p)) /\ snd p = i).
    { assert (G : forall k, nth_error (combine (combine flags os) (seq k (List.length os))) i = Some p ->
        nth_error flags i = Some (fst (fst p)) /\ nth_error os i = Some (snd (fst p)) /\ snd p = k + i).
      { clear -HL. revert flags os HL. induction i as [|i IH]; intros [|a flags] [|b os] HL k; cbn; try discriminate.
        - intros H; inversion H; subst. cbn. repeat split; lia.
        - intros H. destruct (IH flags os) with (k := S k) as (A & B & C); auto. repeat split; auto. lia. }
      destruct (G 0 Hi) as (A & B & C). repeat split; auto. }
    destruct H as (H1 & H2 & H3). rewrite (proj2 (get_Ok_iff _ _ _) H1), (proj2 (get_Ok_iff _ _ _) H2). cbn [bind].
    destruct p as [[a b] c]. cbn in *. subst. reflexivity.
  Qed.

  (** what has been written *)
  Definition Written (s : text) (ts : list text) : Prop := Tokens Blank s ts /\ EndsBlank s.
  Lemma Written_app s ts s' ts' : Written s ts -> Written s' ts' -> Written (s ++ s') (ts ++ ts').
  Proof.
    intros [H E] [H' E']. split; [apply tokens_app; auto|]. destruct s' as [|c s']; [rewrite app_nil_r; auto|]. apply ends_app; auto. discriminate.
  Qed.
  Lemma Written_word w g : Wd w -> g <> [] -> Forall Blank g -> Written (w ++ g) [w].
  Proof. intros A B C. apply tokens_word_gap; auto. Qed.
  Lemma Written_nil : Written [] []. Proof. split; [apply Tok_none; constructor|now left]. Qed.
  Lemma tab1 : Forall Blank TAB. Proof. constructor; [exact blank9|constructor]. Qed.

  Lemma names_good f c : In c classes -> c_name c = s_name f -> Forall GoodName (names_of f).
  Proof. intros H E. rewrite (names_of_class H E). apply (class_facts H). Qed.

  Lemma header_params m (names : list text) (n : nat) : small (n + 1) -> Forall GoodName names ->
    forall npre npost line ts, b_labels m = npre ++ names ++ npost -> b_nParamsTot m = List.length (b_labels m) -> Written line ts ->
    exists line', for_ (List.length names) (fun i headerLine =>
         do paramName <- GetParameterName m (List.length npre + i);
         do s <- PrintToString (c_str paramName ++ lit "_" ++ dec (n + 1) ++ TAB);
         Ok (headerLine ++ s)) line = Ok line' /\ Written line' (ts ++ map (fun p => tagged dec p (n + 1)) names).
  Proof.
    intros Hn HG npre npost line ts Eb En HW.
    rewrite (@for_ext _ _ (fun i headerLine => do paramName <- get names i;
         do s <- PrintToString (c_str paramName ++ lit "_" ++ dec (n + 1) ++ TAB); Ok (headerLine ++ s))).
    2:{ intros i s Hi. unfold GetParameterName. rewrite En, Eb, !app_length.
        destruct (Nat.ltb_spec (List.length npre + i) (List.length npre + (List.length names + List.length npost))); [|lia].
        f_equal. unfold get. rewrite nth_error_app2 by lia. replace (List.length npre + i - List.length npre) with i by lia.
        rewrite nth_error_app1 by lia. reflexivity. }
    clear Eb En npre npost. unfold for_.
    rewrite (@for_foldM _ _ (fun paramName headerLine => do s <- PrintToString (c_str paramName ++ lit "_" ++ dec (n + 1) ++ TAB); Ok (headerLine ++ s)) names).
    2:{ intros i p t Hi. cbn [Nat.add]. rewrite (proj2 (get_Ok_iff _ _ _) Hi). reflexivity. }
    revert line ts HW. induction HG as [|p names Hp HF IH]; intros line ts HW; cbn [foldM map].
    - exists line. rewrite app_nil_r. auto.
    - destruct (tagged_word Hn Hp) as (W1 & W2 & W3).
      assert (Ep : c_str p = p) by (apply c_str_id, OneLine_NoNul; apply Hp). rewrite Ep.
      assert (Et : p ++ lit "_" ++ dec (n + 1) ++ TAB = tagged dec p (n + 1) ++ TAB) by (unfold tagged; rewrite <- !app_assoc; reflexivity).
      rewrite Et, print_short by (rewrite app_length; cbn [List.length TAB]; lia). cbn [bind].
      destruct (IH (line ++ tagged dec p (n + 1) ++ TAB) (ts ++ [tagged dec p (n + 1)])) as (l' & E & W).
      { apply Written_app; auto. apply Written_word; auto; [discriminate|exact tab1]. }
      exists l'. split; auto. rewrite <- app_assoc in W. exact W.
  Qed.

  Lemma header_func m o f (flag : bool) n nSet npre npost line ts : MadeBy o f ->
    small (n + 1) -> (flag = true -> small (S nSet)) -> 
    b_labels m = npre ++ (if flag then [lit "X0"; lit "Y0"] else []) ++ names_of f ++ npost -> b_nParamsTot m = List.length (b_labels m) -> Written line ts ->
    exists line', gh_body m (flag, o, n) (List.length npre, nSet, line) =
       Ok (List.length (npre ++ (if flag then [lit "X0"; lit "Y0"] else []) ++ names_of f), (if flag then S nSet else nSet), line') /\
      Written line' (ts ++ (if flag then [tagged dec (lit "X0") (S nSet); tagged dec (lit "Y0") (S nSet)] else []) ++
                     map (fun p => tagged dec p (n + 1)) (own_names f)).
  Proof.
    intros HM Hn Hs Eb En HW. destruct (MadeBy_props HM) as ([[Hc Hnm] _ _] & _ & _).
    assert (En' : GetParameterNames o = names_of f) by (symmetry; now apply names_of_class).
    pose proof (names_good Hc Hnm) as HG.
    unfold gh_body. cbn [fst snd]. rewrite En'. destruct flag.
    - specialize (Hs eq_refl). destruct (HD Hs) as [D L]. destruct (digits_chars D) as [Dn DF].
      assert (G0 : forall w, name_b (lit w) = true -> GoodName (lit w)) by (intros w; apply name_true).
      rewrite print_short by (rewrite !app_length; cbn [List.length lit list_ascii_of_string TAB]; lia). cbn [bind].
      destruct (tagged_word Hs (name_true (w := lit "Y0") eq_refl)) as (Y1 & _ & _).
      assert (X1 : Wd (tagged dec (lit "X0") (S nSet))).
      { unfold tagged. split; [discriminate|]. apply Forall_app. split.
        - repeat constructor; intros [Q|[Q|[Q|[]]]]; discriminate Q.
        - apply Forall_app. split; [repeat constructor; intros [Q|[Q|[Q|[]]]]; discriminate Q|]. eapply Forall_impl; [|exact DF]. cbn. tauto. }
      assert (tt2 : Forall Blank (TAB ++ TAB)) by exact tabs_blank.
      destruct (@header_params m (names_of f) n Hn HG (npre ++ [lit "X0"; lit "Y0"]) npost
         (line ++ (lit "X0_" ++ dec (S nSet) ++ TAB ++ TAB ++ lit "Y0_" ++ dec (S nSet) ++ TAB ++ TAB))
         (ts ++ [tagged dec (lit "X0") (S nSet)] ++ [tagged dec (lit "Y0") (S nSet)])) as (l' & E & W); auto.
      { rewrite Eb, <- !app_assoc. reflexivity. }
      { apply Written_app; auto.
        replace (lit "X0_" ++ dec (S nSet) ++ TAB ++ TAB ++ lit "Y0_" ++ dec (S nSet) ++ TAB ++ TAB)
          with ((tagged dec (lit "X0") (S nSet) ++ (TAB ++ TAB)) ++ (tagged dec (lit "Y0") (S nSet) ++ (TAB ++ TAB))).
        - apply Written_app; apply Written_word; auto; discriminate.
        - unfold tagged. rewrite <- !app_assoc. reflexivity. }
      rewrite app_length in E. cbn [List.length] in E. rewrite E. cbn [bind]. exists l'. split.
      + f_equal. f_equal. f_equal. rewrite !app_length. cbn [List.length]. lia.
      + rewrite own_names_of. rewrite <- app_assoc in W. exact W.
    - cbn [bind app] in *. destruct (@header_params m (names_of f) n Hn HG npre npost line ts Eb En HW) as (l' & E & W).
      rewrite E. cbn [bind]. exists l'. split; [|exact W]. f_equal. f_equal. f_equal. rewrite app_length. reflexivity.
  Qed.

  Lemma header_funcs m fs : forall os n nSet npre npost line ts, Forall2 (@MadeBy T) os fs -> small (n + List.length fs) ->
    b_labels m = npre ++ flat_map names_of fs ++ npost -> b_nParamsTot m = List.length (b_labels m) -> Written line ts ->
    exists line', foldM (gh_body m) (combine (combine (repeat false (List.length fs)) os) (seq n (List.length fs))) (List.length npre, nSet, line) =
       Ok (List.length (npre ++ flat_map names_of fs), nSet, line') /\ Written line' (ts ++ func_cols dec (n + 1) fs).
  Proof.
    induction fs as [|f fs IH]; intros os n nSet npre npost line ts H2 Hn Eb En HW; inversion H2 as [|o ? os' ? HM H2']; subst os.
    - cbn. exists line. rewrite !app_nil_r. auto.
    - cbn [List.length] in Hn. cbn [List.length repeat combine seq foldM flat_map func_cols] in *. rewrite <- app_assoc in Eb.
      destruct (@header_func m o f false n nSet npre (flat_map names_of fs ++ npost) line ts HM) as (l1 & E1 & W1); auto; try lia; try discriminate.
      rewrite E1. cbn [bind app].
      destruct (IH os' (S n) nSet (npre ++ names_of f) npost l1 (ts ++ map (fun p => tagged dec p (n + 1)) (own_names f))) as (l2 & E2 & W2); auto; try lia.
      { now rewrite <- app_assoc. }
      rewrite E2. exists l2. split; [now rewrite <- app_assoc|]. rewrite <- app_assoc in W2. exact W2.
  Qed.

  Lemma header_blocks m bs : Forall (fun b => s_funcs b <> []) bs -> forall os n nSet npre line ts,
    Forall2 (@MadeBy T) os (sall bs) -> small (n + List.length (sall bs)) -> small (nSet + List.length (sall bs)) ->
    b_labels m = npre ++ param_names bs -> b_nParamsTot m = List.length (b_labels m) -> Written line ts ->
    exists st line', foldM (gh_body m) (combine (combine (flag_list (map as_blk bs)) os) (seq n (List.length (sall bs)))) (List.length npre, nSet, line) =
       Ok (st, line') /\ Written line' (ts ++ block_cols dec (S nSet) (n + 1) bs).
  Proof.
    induction 1 as [|b bs Hb HFb IH]; intros os n nSet npre line ts H2 Hn HnS Eb En HW.
    - cbn. exists (List.length npre, nSet), line. rewrite app_nil_r. auto.
    - unfold sall in *. cbn [flat_map] in *. fold (sall bs) in *. rewrite app_length in *.
      apply Forall2_app_inv_r in H2. destruct H2 as (o1 & o2 & H1 & H2 & ->).
      unfold flag_list. cbn [map flat_map]. fold (flag_list (map as_blk bs)). cbn [as_blk Params_Spec.b_funcs].
      rewrite param_names_cons in Eb. cbn [block_cols].
      destruct (s_funcs b) as [|f fs] eqn:Ef; [congruence|].
      inversion H1 as [|o ? o1' ? HM H1']; subst. cbn [map]. rewrite map_length.
      assert (L1 : List.length o1' = List.length fs) by exact (Forall2_len H1').
      rewrite combine_app by (cbn; rewrite repeat_length; lia). rewrite seq_app.
      rewrite combine_app by (rewrite combine_length, seq_length; cbn; rewrite repeat_length; lia).
      rewrite foldM_app. cbn [combine foldM List.length seq].
      cbn [List.length] in Hn, HnS. cbn [flat_map] in Eb.
      change (lit "X0" :: lit "Y0" :: (names_of f ++ flat_map names_of fs) ++ param_names bs) with
        ([lit "X0"; lit "Y0"] ++ (names_of f ++ flat_map names_of fs) ++ param_names bs) in Eb.
      rewrite <- !app_assoc in Eb.
      destruct (@header_func m o f true n nSet npre (flat_map names_of fs ++ param_names bs) line ts HM) as (l1 & E1 & W1); auto; try lia.
      rewrite E1. cbn [bind].
      destruct (@header_funcs m fs o1' (S n) (S nSet) (npre ++ [lit "X0"; lit "Y0"] ++ names_of f) (param_names bs) l1
        (ts ++ [tagged dec (lit "X0") (S nSet); tagged dec (lit "Y0") (S nSet)] ++ map (fun p => tagged dec p (n + 1)) (own_names f)) H1') as (l2 & E2 & W2); auto; try lia.
      { rewrite Eb, <- !app_assoc. reflexivity. }
      rewrite E2. cbn [bind].
      destruct (IH o2 (n + S (List.length fs)) (S nSet) ((npre ++ [lit "X0"; lit "Y0"] ++ names_of f) ++ flat_map names_of fs) l2
        ((ts ++ [tagged dec (lit "X0") (S nSet); tagged dec (lit "Y0") (S nSet)] ++ map (fun p => tagged dec p (n + 1)) (own_names f)) ++ func_cols dec (S n + 1) fs) H2)
        as (st & l3 & E3 & W3); auto; try lia.
      { rewrite Eb, <- !app_assoc. reflexivity. }
      rewrite E3. exists st, l3. split; auto. cbn [func_cols List.length].
      replace (n + 1 + S (List.length fs)) with (n + S (List.length fs) + 1) by lia. rewrite <- !app_assoc in W3. cbn [app] in W3 |- *.
      rewrite <- !app_assoc. exact W3.
  Qed.

  Lemma header_ok psf bs m : bs <> [] -> Forall (fun b => s_funcs b <> []) bs -> small (List.length (sall bs)) ->
    AddFunctions psf (map s_name (sall bs)) (map s_label (sall bs)) (sstarts bs) (map s_opts (sall bs)) = Ok (0%Z, Some m) ->
    exists h, GetParamHeader dec m = Ok h /\ Written h (lit "#" :: columns dec bs).
  Proof.
    intros Hne Hb Hsm HB.
    destruct (@add_functions_ok T psf bs Hne Hb) as [(s & Hs & E & _)|(os & E & _ & H2 & _)]; rewrite E in HB; inversion HB; subst.
    set (m := mkBuilt _ _ _ _).
    assert (HL : List.length (flag_list (map as_blk bs)) = List.length os).
    { rewrite flag_list_length, sizes_sall, map_length. symmetry. exact (Forall2_len H2). }
    destruct (@header_blocks m bs Hb os 0 0 [] (lit "# ") [lit "#"] H2) as (st & h & Eh & W); auto.
    { apply (@Written_word (lit "#") (lit " ")); [split; [discriminate|repeat constructor; intros [Q|[Q|[Q|[]]]]; discriminate Q]|discriminate|repeat constructor; exact blank32]. }
    exists h. split; [|exact W]. unfold GetParamHeader. cbn [Build_Model.b_funcs b_flags m].
    rewrite (@for_ext _ _ (fun n st => do flag <- get (flag_list (map as_blk bs)) n; do o <- get os n; gh_body m (flag, o, n) st)).
    - rewrite loop_flags_n by exact HL. rewrite <- (Forall2_len H2) in Eh. cbn [List.length] in Eh. rewrite Eh. reflexivity.
    - intros i [[k ns] out] Hi. destruct (@get_lt _ os i Hi) as (o & Eo). rewrite <- HL in Hi. destruct (@get_lt _ _ i Hi) as (fl & Ef). rewrite Ef, Eo. cbn [bind].
      unfold gh_body. cbn [fst snd]. destruct fl; cbn [bind]; [|reflexivity].
      destruct (PrintToString _); reflexivity.
  Qed.

  (** ---- distinct columns ---- *)
  Lemma tagged_inj a n b k : small n -> small k -> tagged dec a n = tagged dec b k -> a = b /\ n = k.
  Proof.
    intros Hn Hk. destruct (HD Hn) as [D _]. destruct (HD Hk) as [D' _]. unfold tagged.
    destruct (digits_chars D) as [_ F]. destruct (digits_chars D') as [_ F'].
    assert (NU : Forall (fun c => c <> ascii_of_nat 95) (dec n)) by (eapply Forall_impl; [|exact F]; cbn; tauto).
    assert (NU' : Forall (fun c => c <> ascii_of_nat 95) (dec k)) by (eapply Forall_impl; [|exact F']; cbn; tauto).
    assert (G : forall (a b d d' : text), Forall (fun c => c <> ascii_of_nat 95) d -> Forall (fun c => c <> ascii_of_nat 95) d' ->
       a ++ ascii_of_nat 95 :: d = b ++ ascii_of_nat 95 :: d' -> a = b /\ d = d').
    { clear. induction a as [|x a IH]; intros [|y b] d d' Hd Hd' E; cbn in E.
      - inversion E; auto.
      - inversion E; subst. exfalso. rewrite Forall_forall in Hd. apply (Hd (ascii_of_nat 95)); auto. apply in_or_app. right. now left.
      - inversion E; subst. exfalso. rewrite Forall_forall in Hd'. apply (Hd' (ascii_of_nat 95)); auto. apply in_or_app. right. now left.
      - inversion E; subst. destruct (IH b d d' Hd Hd' H1) as [-> ->]. auto. }
    intros E. destruct (G a b (dec n) (dec k) NU NU' E) as [-> Ed]. split; auto. apply Nat2Z.inj.
    rewrite <- (Digits_read D), <- (Digits_read D'), Ed. reflexivity.
  Qed.

  Definition own_ok (f : sfunc T) : Prop := NoDup (own_names f) /\ ~ In (lit "X0") (own_names f) /\ ~ In (lit "Y0") (own_names f).
  Definition own_b (c : class) : bool :=
    (if list_eq_dec (list_eq_dec ascii_dec) (nodup (list_eq_dec ascii_dec) (c_params c)) (c_params c) then true else false) &&
    negb (existsb (str_eqb (lit "X0")) (c_params c)) && negb (existsb (str_eqb (lit "Y0")) (c_params c)).
  Lemma own_facts f : Known (s_name f) -> own_ok f.
  Proof.
    intros (c & Hc & Hn). unfold own_ok. rewrite own_names_of, (names_of_class Hc Hn).
    assert (H : forallb own_b classes = true) by (vm_compute; reflexivity).
    rewrite forallb_forall in H. specialize (H c Hc). unfold own_b in H.
    apply andb_true_iff in H. destruct H as [H H3]. apply andb_true_iff in H. destruct H as [H1 H2].
    apply negb_true_iff in H2, H3.
    assert (NI : forall w l, existsb (str_eqb w) l = false -> ~ In w l).
    { intros w l E Q. assert (existsb (str_eqb w) l = true) by (apply existsb_exists; exists w; split; [exact Q|apply str_eqb_refl]). congruence. }
    split; [|split; apply NI; assumption].
    destruct (list_eq_dec _ _ _) as [E|]; [|discriminate]. rewrite <- E. apply NoDup_nodup.
  Qed.

  (** every column is a name with a number in a range *)
  Lemma func_cols_in n fs x : In x (func_cols dec n fs) -> exists f p k, In f fs /\ In p (own_names f) /\ n <= k < n + List.length fs /\ x = tagged dec p k.
  Proof.
    revert n. induction fs as [|f fs IH]; intros n H; cbn in H; [contradiction|]. apply in_app_or in H. destruct H as [H|H].
    - apply in_map_iff in H. destruct H as (p & <- & Hp). exists f, p, n. cbn. repeat split; auto; lia.
    - destruct (IH (S n) H) as (f' & p & k & A & B & C & D). exists f', p, k. cbn. repeat split; auto; lia.
  Qed.
  Lemma func_cols_nodup n fs : small (n + List.length fs) -> Forall own_ok fs -> NoDup (func_cols dec n fs).
  Proof.
    revert n. induction fs as [|f fs IH]; intros n Hn HF; cbn [func_cols]; [constructor|]. cbn [List.length] in Hn.
    inversion HF as [|? ? (H1 & _) HF']; subst. apply NoDup_app.
    - assert (Hs : small n) by lia. clear -H1 Hs HD. induction H1 as [|p l Hp Hl IH]; cbn; constructor; auto.
      intros Q. apply in_map_iff in Q. destruct Q as (q & E & Hq). apply tagged_inj in E; auto. destruct E; subst. contradiction.
    - apply IH; auto. lia.
    - intros x Hx Hy. apply in_map_iff in Hx. destruct Hx as (p & <- & _). apply func_cols_in in Hy.
      destruct Hy as (f' & p' & k & _ & _ & Hk & E). apply tagged_inj in E; lia.
  Qed.
  Lemma block_cols_in k n bs x : In x (block_cols dec k n bs) ->
    (exists j, k <= j < k + List.length bs /\ (x = tagged dec (lit "X0") j \/ x = tagged dec (lit "Y0") j)) \/
    (exists f p j, In f (sall bs) /\ In p (own_names f) /\ n <= j < n + List.length (sall bs) /\ x = tagged dec p j).
  Proof.
    revert k n. induction bs as [|b bs IH]; intros k n H; cbn in H; [contradiction|].
    unfold sall in *. cbn [flat_map List.length] in *. rewrite app_length. destruct H as [H|[H|H]].
    - left. exists k. split; [lia|auto].
    - left. exists k. split; [lia|auto].
    - apply in_app_or in H. destruct H as [H|H].
      + right. apply func_cols_in in H. destruct H as (f & p & j & A & B & C & D). exists f, p, j. repeat split; auto; try lia. apply in_or_app. auto.
      + destruct (IH _ _ H) as [(j & Hj & Hx)|(f & p & j & A & B & C & D)].
        * left. exists j. split; [lia|auto].
        * right. exists f, p, j. repeat split; auto; try lia. apply in_or_app. auto.
  Qed.
  Lemma block_cols_nodup k n bs : Forall (fun b => s_funcs b <> []) bs ->
    small (n + List.length (sall bs)) -> small (k + List.length (sall bs)) -> Forall own_ok (sall bs) -> NoDup (block_cols dec k n bs).
  Proof.
    intros HN. revert k n. induction HN as [|b bs Hb HF IH]; intros k n Hn Hk HO; cbn [block_cols]; [constructor|].
    unfold sall in *. cbn [flat_map] in *. fold (sall bs) in *. rewrite app_length in *. apply Forall_app in HO. destruct HO as [HO1 HO2].
    assert (Lb : 1 <= List.length (s_funcs b)) by (destruct (s_funcs b); [congruence|cbn; lia]).
    assert (LB : List.length bs <= List.length (sall bs)).
    { clear -HF. unfold sall. induction HF as [|b bs Hb HF IH]; cbn; [lia|]. rewrite app_length. destruct (s_funcs b); [congruence|cbn; lia]. }
    assert (XY : forall w, w = lit "X0" \/ w = lit "Y0" -> ~ In (tagged dec w k) (func_cols dec n (s_funcs b) ++ block_cols dec (S k) (n + List.length (s_funcs b)) bs)).
    { intros w Hw Q. apply in_app_or in Q. destruct Q as [Q|Q].
      - apply func_cols_in in Q. destruct Q as (f & p & j & A & B & C & D). apply tagged_inj in D; try lia. destruct D as [-> _].
        rewrite Forall_forall in HO1. destruct (HO1 f A) as (_ & N1 & N2). destruct Hw; subst; contradiction.
      - apply block_cols_in in Q. destruct Q as [(j & Hj & Hx)|(f & p & j & A & B & C & D)].
        + destruct Hx as [E|E]; apply tagged_inj in E; lia.
        + apply tagged_inj in D; try lia. destruct D as [-> _]. rewrite Forall_forall in HO2. destruct (HO2 f A) as (_ & N1 & N2). destruct Hw; subst; contradiction. }
    constructor; [|constructor].
    - intros [Q|Q].
      + apply tagged_inj in Q; try lia. destruct Q as [Q _]. discriminate Q.
      + exact (XY _ (or_introl eq_refl) Q).
    - exact (XY _ (or_intror eq_refl)).
    - apply NoDup_app.
      + apply func_cols_nodup; auto. lia.
      + apply IH; auto; lia.
      + intros x Hx Hy. apply func_cols_in in Hx. destruct Hx as (f & p & j & A & B & C & ->).
        rewrite Forall_forall in HO1. destruct (HO1 f A) as (_ & N1 & N2).
        apply block_cols_in in Hy. destruct Hy as [(j' & Hj & E)|(f' & p' & j' & A' & B' & C' & E)].
        * destruct E as [E|E]; apply tagged_inj in E; try lia; destruct E; subst; contradiction.
        * apply tagged_inj in E; lia.
  Qed.

  Lemma cols_names k n bs : Forall2 (fun c p => exists j, c = tagged dec p j) (block_cols dec k n bs) (param_names bs).
  Proof.
    revert k n. induction bs as [|b bs IH]; intros k n; [constructor|]. rewrite param_names_cons. cbn [block_cols].
    constructor; [eauto|]. constructor; [eauto|]. apply Forall2_app; auto.
    generalize n. induction (s_funcs b) as [|f fs IHf]; intros n'; cbn [func_cols flat_map]; [constructor|]. apply Forall2_app; auto.
    rewrite own_names_of. clear. generalize (names_of f) as l. intros l. induction l as [|a l IH]; cbn [map]; constructor; eauto.
  Qed.
End T1.

Section T2.
  Variable T : Type.
  Variable N : Num T.
  Variable g10 : T -> text.
  Hypothesis HS : ShowOK g10.
  Variable sep : text.
  Hypothesis HSep : SepOK sep.
  Variables offX offY : T.
  Implicit Types f : sfunc T.
  Implicit Types bs : list (sblock T).

  Lemma show_word v : Wd (g10 v).
  Proof. destruct (HS v) as (A & _ & B). split; auto. eapply Forall_impl; [|exact B]. cbn. tauto. Qed.
  Lemma sep_c : c_str sep = sep.
  Proof.
    apply c_str_id. destruct HSep as (_ & _ & H). eapply Forall_impl; [|exact H]. cbn. intros c [<-|[<-|[<-|[]]]]; discriminate.
  Qed.
  Lemma sep_word v : Tokens Blank (sep ++ g10 v) [g10 v] /\ StartsBlank (sep ++ g10 v).
  Proof.
    destruct HSep as (A & _ & B). split; [apply tokens_gap; auto; apply tokens_word, show_word|].
    destruct sep as [|c t]; [congruence|]. inversion B; auto.
  Qed.
  Lemma row_app s ts v : Tokens Blank s ts -> Tokens Blank (s ++ sep ++ g10 v) (ts ++ [g10 v]).
  Proof. intros H. destruct (sep_word v). apply tokens_app; auto. Qed.

  Definition row_body (params : list T) (p : bool * fobj * nat) (st : nat * str) : res (nat * str) :=
    let '(indexOffset, outputString) := st in
    do c <- (if fst (fst p) then
               do px <- get params indexOffset;
               do py <- get params (indexOffset + 1);
               let x0 := nadd N px offX in
               let y0 := nadd N py offY in
               do s <- (if (snd p =? 0)%nat then PrintToString (g10 x0 ++ c_str sep ++ g10 y0)
                        else PrintToString (c_str sep ++ g10 x0 ++ c_str sep ++ g10 y0));
               Ok (indexOffset + 2, outputString ++ s)
             else Ok (indexOffset, outputString));
    let '(indexOffset, outputString) := c in
    do outputString <- for_ (List.length (GetParameterNames (snd (fst p)))) (fun i outputString =>
         do paramVal <- get params (indexOffset + i);
         do s <- PrintToString (c_str sep ++ g10 paramVal);
         Ok (outputString ++ s)) outputString;
    Ok (indexOffset + List.length (GetParameterNames (snd (fst p))), outputString).

  Lemma short1 v : List.length (sep ++ g10 v) < 1024.
  Proof. destruct (HS v) as (_ & L & _). destruct HSep as (_ & L' & _). rewrite app_length. lia. Qed.

  Lemma row_params vs ppre ppost line ts : Tokens Blank line ts ->
    exists line', for_ (List.length vs) (fun i outputString =>
         do paramVal <- get (ppre ++ vs ++ ppost) (List.length ppre + i);
         do s <- PrintToString (c_str sep ++ g10 paramVal);
         Ok (outputString ++ s)) line = Ok line' /\ Tokens Blank line' (ts ++ map g10 vs).
  Proof.
    intros HW.
    rewrite (@for_ext _ _ (fun i outputString => do paramVal <- get vs i; do s <- PrintToString (c_str sep ++ g10 paramVal); Ok (outputString ++ s))).
    2:{ intros i s Hi. f_equal. unfold get. rewrite nth_error_app2 by lia. replace (List.length ppre + i - List.length ppre) with i by lia.
        rewrite nth_error_app1 by lia. reflexivity. }
    unfold for_.
    rewrite (@for_foldM _ _ (fun paramVal outputString => do s <- PrintToString (c_str sep ++ g10 paramVal); Ok (outputString ++ s)) vs).
    2:{ intros i p t Hi. cbn [Nat.add]. rewrite (proj2 (get_Ok_iff _ _ _) Hi). reflexivity. }
    rewrite sep_c. clear ppre ppost. revert line ts HW. induction vs as [|v vs IH]; intros line ts HW; cbn [foldM map].
    - exists line. rewrite app_nil_r. auto.
    - rewrite print_short by apply short1. cbn [bind].
      destruct (IH (line ++ sep ++ g10 v) (ts ++ [g10 v]) (row_app v HW)) as (l' & E & W).
      exists l'. split; auto. rewrite <- app_assoc in W. exact W.
  Qed.

  Lemma row_func params o f n ppre ppost line ts : MadeBy o f -> Sized f ->
    params = ppre ++ s_vals f ++ ppost -> Tokens Blank line ts ->
    exists line', row_body params (false, o, n) (List.length ppre, line) = Ok (List.length (ppre ++ s_vals f), line') /\
      Tokens Blank line' (ts ++ map g10 (s_vals f)).
  Proof.
    intros HM (c & Hc & Hn & HL) -> HW. destruct (MadeBy_props HM) as ([[Hco Hno] _ _] & _ & _).
    assert (Eq : List.length (GetParameterNames o) = List.length (s_vals f)).
    { rewrite HL. unfold GetParameterNames. f_equal. f_equal. apply class_same; auto. congruence. }
    unfold row_body. cbn [fst snd bind]. rewrite Eq. destruct (@row_params (s_vals f) ppre ppost line ts HW) as (l' & E & W).
    rewrite E. cbn [bind]. exists l'. split; auto. now rewrite app_length.
  Qed.

  Lemma row_funcs params fs : forall os n ppre ppost line ts, Forall2 (@MadeBy T) os fs -> Forall Sized fs ->
    params = ppre ++ flat_map s_vals fs ++ ppost -> Tokens Blank line ts ->
    exists line', foldM (row_body params) (combine (combine (repeat false (List.length fs)) os) (seq n (List.length fs))) (List.length ppre, line)
       = Ok (List.length (ppre ++ flat_map s_vals fs), line') /\ Tokens Blank line' (ts ++ map g10 (flat_map s_vals fs)).
  Proof.
    induction fs as [|f fs IH]; intros os n ppre ppost line ts H2 HZ Ep HW; inversion H2 as [|o ? os' ? HM H2']; subst os.
    - cbn. exists line. rewrite !app_nil_r. auto.
    - inversion HZ as [|? ? Z1 Z2]; subst x l. cbn [List.length repeat combine seq foldM flat_map] in *. rewrite <- app_assoc in Ep.
      destruct (@row_func params o f n ppre (flat_map s_vals fs ++ ppost) line ts HM Z1 Ep HW) as (l1 & E1 & W1).
      rewrite E1. cbn [bind].
      destruct (IH os' (S n) (ppre ++ s_vals f) ppost l1 (ts ++ map g10 (s_vals f)) H2' Z2) as (l2 & E2 & W2); auto.
      { rewrite <- app_assoc. exact Ep. }
      rewrite E2. exists l2. split; [now rewrite <- app_assoc|]. rewrite map_app, app_assoc. exact W2.
  Qed.

  Lemma row_blocks params bs : Forall (fun b => s_funcs b <> []) bs -> forall os n ppre line ts,
    Forall2 (@MadeBy T) os (sall bs) -> Forall Sized (sall bs) -> params = ppre ++ sflat bs ->
    Tokens Blank line ts -> (n = 0 -> line = [] /\ ts = []) ->
    exists line', foldM (row_body params) (combine (combine (flag_list (map as_blk bs)) os) (seq n (List.length (sall bs)))) (List.length ppre, line)
       = Ok (List.length params, line') /\ Tokens Blank line' (ts ++ map (fun p => g10 (fst p)) (shown (nadd N) offX offY bs)).
  Proof.
    induction 1 as [|b bs Hb HFb IH]; intros os n ppre line ts H2 HZ Ep HW H0.
    - cbn. exists line. rewrite Ep, !app_nil_r. auto.
    - rewrite sflat_cons in Ep. unfold sall in *. cbn [flat_map] in *. fold (sall bs) in *. rewrite app_length in *.
      apply Forall2_app_inv_r in H2. destruct H2 as (o1 & o2 & H1 & H2 & ->). apply Forall_app in HZ. destruct HZ as [HZ1 HZ2].
      unfold flag_list. cbn [map flat_map]. fold (flag_list (map as_blk bs)). cbn [as_blk Params_Spec.b_funcs].
      assert (Esh : shown (nadd N) offX offY (b :: bs) = ((nadd N (s_x b) offX, true) :: (nadd N (s_y b) offY, true) ::
         map (fun v => (v, false)) (flat_map s_vals (s_funcs b))) ++ shown (nadd N) offX offY bs) by reflexivity.
      rewrite Esh. clear Esh.
      destruct (s_funcs b) as [|f fs] eqn:Ef; [congruence|].
      inversion H1 as [|o ? o1' ? HM H1']; subst o1. apply Forall_cons_iff in HZ1. destruct HZ1 as [Z1 Z2]. cbn [map]. rewrite map_length.
      assert (L1 : List.length o1' = List.length fs) by exact (Forall2_len H1').
      rewrite combine_app by (cbn; rewrite repeat_length; lia). rewrite seq_app.
      rewrite combine_app by (rewrite combine_length, seq_length; cbn; rewrite repeat_length; lia).
      rewrite foldM_app. cbn [combine foldM List.length seq].
      set (cx := nadd N (s_x b) offX). set (cy := nadd N (s_y b) offY).
      assert (Gx : get params (List.length ppre) = Ok (s_x b)) by (rewrite Ep; apply get_app).
      assert (Gy : get params (List.length ppre + 1) = Ok (s_y b)).
      { rewrite Ep. replace (ppre ++ s_x b :: s_y b :: flat_map s_vals (f :: fs) ++ sflat bs)
          with ((ppre ++ [s_x b]) ++ s_y b :: flat_map s_vals (f :: fs) ++ sflat bs) by (rewrite <- app_assoc; reflexivity).
        apply get_app_eq. rewrite app_length. reflexivity. }
      assert (HC : exists line1, row_body params (true, o, n) (List.length ppre, line) = row_body params (false, o, n) (List.length (ppre ++ [s_x b; s_y b]), line1) /\
          Tokens Blank line1 (ts ++ [g10 cx; g10 cy])).
      { pose proof (short1 cx) as Sx. pose proof (short1 cy) as Sy. rewrite app_length in Sx, Sy.
        destruct (HS cx) as (_ & Lx & _). destruct (HS cy) as (_ & Ly & _). destruct HSep as (_ & Ls & _).
        unfold row_body at 1. cbn [fst snd]. rewrite Gx, Gy. cbn [bind]. fold cx cy. rewrite sep_c.
        destruct n as [|n']; cbn [Nat.eqb].
        - destruct (H0 eq_refl) as [-> ->]. rewrite print_short by (rewrite !app_length; lia). cbn [bind app].
          exists (g10 cx ++ sep ++ g10 cy). split.
          + unfold row_body. cbn [fst snd bind]. rewrite app_length, sep_c. reflexivity.
          + apply (@row_app (g10 cx) [g10 cx] cy). apply tokens_word, show_word.
        - rewrite print_short by (rewrite !app_length; lia). cbn [bind].
          exists (line ++ (sep ++ g10 cx) ++ sep ++ g10 cy). split.
          + unfold row_body. cbn [fst snd bind]. rewrite app_length, sep_c, <- app_assoc. reflexivity.
          + replace (line ++ (sep ++ g10 cx) ++ sep ++ g10 cy) with ((line ++ sep ++ g10 cx) ++ sep ++ g10 cy) by (now rewrite <- !app_assoc).
            replace (ts ++ [g10 cx; g10 cy]) with ((ts ++ [g10 cx]) ++ [g10 cy]) by (now rewrite <- app_assoc).
            apply row_app, row_app. exact HW. }
      destruct HC as (line1 & E1 & W1). rewrite E1.
      destruct (@row_func params o f n (ppre ++ [s_x b; s_y b]) (flat_map s_vals fs ++ sflat bs) line1 (ts ++ [g10 cx; g10 cy]) HM Z1) as (l2 & E2 & W2); auto.
      { rewrite Ep. cbn [flat_map]. rewrite <- !app_assoc. reflexivity. }
      rewrite E2. cbn [bind].
      destruct (@row_funcs params fs o1' (S n) ((ppre ++ [s_x b; s_y b]) ++ s_vals f) (sflat bs) l2 ((ts ++ [g10 cx; g10 cy]) ++ map g10 (s_vals f)) H1' Z2) as (l3 & E3 & W3); auto.
      { rewrite Ep. cbn [flat_map]. rewrite <- !app_assoc. reflexivity. }
      rewrite E3. cbn [bind].
      destruct (IH o2 (n + S (List.length fs)) (((ppre ++ [s_x b; s_y b]) ++ s_vals f) ++ flat_map s_vals fs) l3
         (((ts ++ [g10 cx; g10 cy]) ++ map g10 (s_vals f)) ++ map g10 (flat_map s_vals fs)) H2 HZ2) as (l4 & E4 & W4); auto.
      { rewrite Ep. cbn [flat_map]. rewrite <- !app_assoc. reflexivity. }
      { intros Q. lia. }
      rewrite E4. exists l4. split; auto. rewrite map_app. cbn [map fst]. rewrite map_map. cbn [fst flat_map]. fold cx cy.
      rewrite map_app. rewrite <- !app_assoc in W4. cbn [app] in W4 |- *. rewrite <- !app_assoc. exact W4.
  Qed.

  Lemma row_ok psf bs m : bs <> [] -> Forall (fun b => s_funcs b <> []) bs -> Forall Sized (sall bs) ->
    AddFunctions psf (map s_name (sall bs)) (map s_label (sall bs)) (sstarts bs) (map s_opts (sall bs)) = Ok (0%Z, Some m) ->
    exists r, PrintModelParamsHorizontalString N g10 m offX offY (sflat bs) sep = Ok r /\
      Tokens Blank r (map (fun p => g10 (fst p)) (shown (nadd N) offX offY bs)).
  Proof.
    intros Hne Hb HZ HB.
    destruct (@add_functions_ok T psf bs Hne Hb) as [(s & Hs & E & _)|(os & E & _ & H2 & _)]; rewrite E in HB; inversion HB; subst.
    assert (HL : List.length (flag_list (map as_blk bs)) = List.length os).
    { rewrite flag_list_length, sizes_sall, map_length. symmetry. exact (Forall2_len H2). }
    destruct (@row_blocks (sflat bs) bs Hb os 0 [] [] [] H2 HZ eq_refl) as (r & Er & W); auto.
    { apply Tok_none. constructor. }
    exists r. split; [|exact W]. unfold PrintModelParamsHorizontalString. cbn [Build_Model.b_funcs b_flags].
    rewrite (@for_ext _ _ (fun n st => do flag <- get (flag_list (map as_blk bs)) n; do o <- get os n; row_body (sflat bs) (flag, o, n) st)).
    - rewrite loop_flags_n by exact HL. rewrite <- (Forall2_len H2) in Er. cbn [List.length] in Er. rewrite Er. reflexivity.
    - intros i [k out] Hi. destruct (@get_lt _ os i Hi) as (o & Eo). rewrite <- HL in Hi. destruct (@get_lt _ _ i Hi) as (fl & Ef). rewrite Ef, Eo. cbn [bind].
      unfold row_body. cbn [fst snd]. destruct fl; cbn [bind]; [|reflexivity].
      reflexivity.
  Qed.
End T2.

(** ---- the Markov-chain files ---- *)
Section T3.
  Variable T : Type.
  Variable N : Num T.
  Variables g10 show : T -> text.
  Variable dec : nat -> text.
  Hypothesis HD : DecOK dec.
  Hypothesis HS : ShowOK g10.
  Hypothesis HW : ShowOK show.
  Implicit Types bs : list (sblock T).
  Notation small n := (Z.of_nat n <= 2 ^ 31 - 1)%Z.

  Lemma dec_word n : small n -> Wd (dec n) /\ List.length (dec n) <= 10.
  Proof.
    intros H. destruct (HD H) as [D L]. destruct (digits_chars D) as [Dn DF]. split; auto. split; auto.
    eapply Forall_impl; [|exact DF]. cbn. tauto.
  Qed.
  Definition cr (n : nat) : text := lit "CR" ++ dec n.
  Lemma cr_word n : small n -> Wd (cr n) /\ List.length (cr n) <= 12.
  Proof.
    intros H. destruct (dec_word H) as [[Dn DF] L]. unfold cr. split; [split; [discriminate|]|rewrite app_length; cbn; lia].
    apply Forall_app. split; auto. repeat (constructor; [intros [Q|[Q|[Q|[]]]]; discriminate Q|]). constructor.
  Qed.
  Lemma blanks_ok k : Forall Blank (repeat (ascii_of_nat 32) k).
  Proof. induction k; cbn; constructor; auto. cbn. auto. Qed.
  Lemma written_app s ts s' ts' : Written s ts -> Written s' ts' -> s' <> [] -> Written (s ++ s') (ts ++ ts').
  Proof. intros [A B] [C D] Hn. split; [apply tokens_app; auto|apply ends_app; auto]. Qed.
  Lemma written_word w k : Wd w -> k <> 0 -> Written (w ++ repeat (ascii_of_nat 32) k) [w].
  Proof. intros H Hk. apply tokens_word_gap; auto; [destruct k; [congruence|discriminate]|apply blanks_ok]. Qed.

  Lemma cr_loop n : small n -> forall h ts, Written h ts ->
    exists h', for_ n (fun i headerString => do s <- PrintToString (lit "CR" ++ dec (i + 1) ++ lit "               "); Ok (headerString ++ s)) h = Ok h' /\
      Written h' (ts ++ map cr (seq 1 n)).
  Proof.
    intros Hn. induction n as [|n IH]; intros h ts H.
    - exists h. cbn. rewrite app_nil_r. auto.
    - destruct (IH ltac:(lia) h ts H) as (h' & E & W). rewrite for_S, E. cbn [bind].
      assert (Hs : small (n + 1)) by lia. destruct (cr_word Hs) as [Cw Cl]. unfold cr in Cl. rewrite app_length in Cl.
      rewrite print_short by (rewrite !app_length; cbn [lit list_ascii_of_string List.length] in *; lia). cbn [bind].
      eexists. split; [reflexivity|]. rewrite seq_S, map_app, (app_assoc ts).
      apply written_app; [exact W| |discriminate]. rewrite app_assoc.
      replace (1 + n) with (n + 1) by lia. apply (@written_word (cr (n + 1)) 15 Cw). discriminate.
  Qed.

  Lemma mcmc_header_ok psf bs m nCR : bs <> [] -> Forall (fun b => s_funcs b <> []) bs -> small (List.length (sall bs)) ->
    1 <= nCR -> small nCR ->
    AddFunctions psf (map s_name (sall bs)) (map s_label (sall bs)) (sstarts bs) (map s_opts (sall bs)) = Ok (0%Z, Some m) ->
    exists h, McmcColumnHeader dec m nCR = Ok h /\
      Tokens Blank h (lit "#" :: columns dec bs ++ [lit "likelihood"; lit "burn-in"] ++ map cr (seq 1 nCR) ++ [lit "accept"]).
  Proof.
    intros Hne Hb Hs H1 Hc HB.
    destruct (@header_ok T dec HD psf bs m) as (h & E & W); auto.
    unfold McmcColumnHeader. rewrite E. cbn [bind].
    destruct (@cr_loop (nCR - 1) ltac:(lia) (h ++ lit "  likelihood  burn-in    ") ((lit "#" :: columns dec bs) ++ [lit "likelihood"; lit "burn-in"])) as (h' & E' & W').
    { apply written_app; auto; [|discriminate]. split.
      - apply (@tokens_gap (repeat (ascii_of_nat 32) 2) (lit "likelihood  burn-in    ")); [apply blanks_ok|].
        apply (@tokens_app (lit "likelihood" ++ repeat (ascii_of_nat 32) 2) [lit "likelihood"]
                 (proj1 (@written_word (lit "likelihood") 2 ltac:(split; [discriminate|repeat (constructor; [intros [Q|[Q|[Q|[]]]]; discriminate Q|]); constructor]) ltac:(discriminate)))
                 (lit "burn-in    ") [lit "burn-in"]).
        + exact (proj1 (@written_word (lit "burn-in") 4 ltac:(split; [discriminate|repeat (constructor; [intros [Q|[Q|[Q|[]]]]; discriminate Q|]); constructor]) ltac:(discriminate))).
        + left. apply ends_blank; [discriminate|apply blanks_ok].
      - right. exists (lit "  likelihood  burn-in   "), (ascii_of_nat 32). split; [reflexivity|cbn; auto]. }
    rewrite E'. cbn [bind]. destruct (cr_word Hc) as [Cw Cl]. unfold cr in Cl. rewrite app_length in Cl.
    rewrite print_short by (rewrite !app_length; cbn [lit list_ascii_of_string List.length] in *; lia). cbn [bind].
    eexists. split; [reflexivity|].
    pose proof (@written_word (cr nCR) 8 Cw ltac:(discriminate)) as W2.
    assert (W3 : Written (h' ++ cr nCR ++ repeat (ascii_of_nat 32) 8) ((((lit "#" :: columns dec bs) ++ [lit "likelihood"; lit "burn-in"]) ++ map cr (seq 1 (nCR - 1))) ++ [cr nCR])).
    { apply written_app; auto. discriminate. }
    assert (Wa : Wd (lit "accept")) by (split; [discriminate|repeat (constructor; [intros [Q|[Q|[Q|[]]]]; discriminate Q|]); constructor]).
    pose proof (@tokens_app _ _ (proj1 W3) _ _ (tokens_word Wa) (or_introl (proj2 W3))) as HT.
    replace (map cr (seq 1 nCR)) with (map cr (seq 1 (nCR - 1)) ++ [cr nCR]).
    2:{ destruct nCR as [|k]; [lia|]. cbn [Nat.sub]. rewrite Nat.sub_0_r, seq_S, map_app. reflexivity. }
    rewrite <- !app_assoc in HT. cbn [app] in HT |- *. rewrite <- !app_assoc. exact HT.
  Qed.

  Lemma show_list pCR : Tokens Blank (flat_map (fun p => show p ++ lit " ") pCR) (map show pCR) /\ EndsBlank (flat_map (fun p => show p ++ lit " ") pCR).
  Proof.
    induction pCR as [|p l [IH1 IH2]]; cbn [flat_map map].
    - split; [apply Tok_none; constructor|now left].
    - assert (W : Written (show p ++ repeat (ascii_of_nat 32) 1) [show p]) by (apply written_word; [exact (show_word HW p)|discriminate]).
      split.
      + apply (@tokens_app _ [show p] (proj1 W) _ _ IH1). left. apply W.
      + destruct (flat_map (fun p => show p ++ lit " ") l) eqn:E; [rewrite app_nil_r; apply W|]. apply ends_app; auto. discriminate.
  Qed.

  Lemma chain_line_ok psf bs m offX offY lik (inBurnIn : bool) pCR accept : bs <> [] -> Forall (fun b => s_funcs b <> []) bs -> Forall Sized (sall bs) ->
    small accept ->
    AddFunctions psf (map s_name (sall bs)) (map s_label (sall bs)) (sstarts bs) (map s_opts (sall bs)) = Ok (0%Z, Some m) ->
    exists r, ChainLine N g10 show dec m offX offY (sflat bs) lik inBurnIn pCR accept = Ok r /\
      Tokens Blank r (map (fun p => g10 (fst p)) (shown (nadd N) offX offY bs) ++
        [show lik; if inBurnIn then lit "1" else lit "0"] ++ map show pCR ++ [dec accept]).
  Proof.
    intros Hne Hb HZ Ha HB.
    assert (HT : SepOK TAB) by (split; [discriminate|split; [cbn; lia|constructor; [cbn; auto|constructor]]]).
    destruct (@row_ok T N g10 HS TAB HT offX offY psf bs m Hne Hb HZ HB) as (r & E & W).
    unfold ChainLine. rewrite E. cbn [bind]. eexists. split; [reflexivity|].
    apply tokens_app; [exact W| |right; cbn; auto].
    apply (@tokens_gap (lit " ")); [apply (blanks_ok 1)|].
    pose proof (@written_word (show lik) 1 (show_word HW lik) ltac:(discriminate)) as W1.
    assert (W2 : Written ((if inBurnIn then lit "1" else lit "0") ++ repeat (ascii_of_nat 32) 2) [if inBurnIn then lit "1" else lit "0"]).
    { apply written_word; [|discriminate]. destruct inBurnIn; (split; [discriminate|constructor; [intros [Q|[Q|[Q|[]]]]; discriminate Q|constructor]]). }
    assert (W3 : Tokens Blank (flat_map (fun p => show p ++ lit " ") pCR ++ dec accept) (map show pCR ++ [dec accept])).
    { destruct (show_list pCR). apply tokens_app; auto. apply tokens_word. exact (proj1 (dec_word Ha)). }
    pose proof (@tokens_app _ _ (proj1 W2) _ _ W3 (or_introl (proj2 W2))) as W4.
    pose proof (@tokens_app _ _ (proj1 W1) _ _ W4 (or_introl (proj2 W1))) as W5.
    cbn [app] in *. rewrite <- !app_assoc in W5. cbn [app repeat] in W5. exact W5.
  Qed.
End T3.

Section T4.
  Variable T : Type.
  Implicit Types bs : list (sblock T).
  Lemma sized_known bs : Forall Sized (sall bs) -> Forall (@own_ok T) (sall bs).
  Proof.
    intros H. eapply Forall_impl; [|exact H]. cbn. intros f (c & Hc & Hn & _). apply own_facts. exists c. auto.
  Qed.
  Lemma columns_nodup dec bs : DecOK dec -> Forall (fun b => s_funcs b <> []) bs -> Forall Sized (sall bs) ->
    (Z.of_nat (List.length (sall bs)) < 2 ^ 31 - 1)%Z -> NoDup (columns dec bs).
  Proof. intros HD Hb HZ HL. apply block_cols_nodup; auto; try lia. now apply sized_known. Qed.
  Lemma columns_length dec bs offX offY (add : T -> T -> T) : Forall Sized (sall bs) ->
    List.length (columns dec bs) = List.length (shown add offX offY bs).
  Proof.
    unfold columns. generalize 1 at 2 as n. generalize 1 as k. induction bs as [|b bs IH]; intros k n HZ; [reflexivity|].
    unfold sall in HZ. cbn [flat_map] in HZ. apply Forall_app in HZ. destruct HZ as [H1 H2].
    change (shown add offX offY (b :: bs)) with (((add (s_x b) offX, true) :: (add (s_y b) offY, true) ::
         map (fun v => (v, false)) (flat_map s_vals (s_funcs b))) ++ shown add offX offY bs).
    cbn [block_cols]. cbn [app List.length]. rewrite !app_length, map_length, (IH _ _ H2). do 3 f_equal. clear - H1.
    revert n. induction (s_funcs b) as [|f fs IH]; intros n; cbn [func_cols flat_map List.length]; auto.
    apply Forall_cons_iff in H1. destruct H1 as [(c & Hc & Hn & HL) H1]. rewrite !app_length, map_length, (IH H1). f_equal.
    rewrite own_names_of, (names_of_class Hc Hn). auto.
  Qed.
  Lemma table_ok (N : Num T) (g10 : T -> text) dec sep psf bs m offX offY : DecOK dec -> ShowOK g10 -> SepOK sep ->
    bs <> [] -> Forall (fun b => s_funcs b <> []) bs -> Forall Sized (sall bs) ->
    (Z.of_nat (List.length (sall bs)) < 2 ^ 31 - 1)%Z ->
    AddFunctions psf (map s_name (sall bs)) (map s_label (sall bs)) (sstarts bs) (map s_opts (sall bs)) = Ok (0%Z, Some m) ->
    exists h r, GetParamHeader dec m = Ok h /\ PrintModelParamsHorizontalString N g10 m offX offY (sflat bs) sep = Ok r /\
      Tokens Blank h (lit "#" :: columns dec bs) /\
      Tokens Blank r (map (fun p => g10 (fst p)) (shown (nadd N) offX offY bs)) /\
      NoDup (columns dec bs) /\
      List.length (columns dec bs) = List.length (shown (nadd N) offX offY bs) /\
      Forall2 (fun c p => exists j, c = tagged dec p j) (columns dec bs) (param_names bs).
  Proof.
    intros HD HS HP Hne Hb HZ HL HB.
    destruct (@header_ok T dec HD psf bs m Hne Hb ltac:(lia) HB) as (h & Eh & Wh).
    destruct (@row_ok T N g10 HS sep HP offX offY psf bs m Hne Hb HZ HB) as (r & Er & Wr).
    exists h, r. split; [auto|]. split; [auto|]. split; [apply Wh|]. split; [auto|]. split; [|split].
    - now apply columns_nodup.
    - now apply columns_length.
    - apply cols_names.
  Qed.
End T4.
