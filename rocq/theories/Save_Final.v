From Coq Require Import Ascii String List ZArith Lia Bool Reals.
From Verif Require Import Base StrUtil_Model StrUtil_Spec StrUtil_Proof Config_Model Config_Spec Config_Proof ConfigL_Spec ConfigL_Proof.
From Verif Require Import Params_Model Params_Spec Params_Proof Build_Model Save_Model Save_Spec Build_Spec Build_Proof Save_Proof.
Set Implicit Arguments. Unset Strict Implicit.
Local Open Scope list_scope.

(** ---- files and lines ---- *)
Definition nl : ascii := ascii_of_nat 10.
Lemma getlines_line b : Forall (fun c => c <> nl) b -> forall cur rest, getlines cur (b ++ NL ++ rest) = (cur ++ b) :: getlines [] rest.
Proof.
  induction 1 as [|c b Hc HF IH]; intros cur rest.
  - cbn. now rewrite app_nil_r.
  - change ((c :: b) ++ NL ++ rest) with (c :: (b ++ NL ++ rest)). cbn [getlines]. destruct (ch_eqb c (ascii_of_nat 10)) eqn:E; [apply ch_eqb_true in E; contradiction|].
    rewrite IH, <- app_assoc. reflexivity.
Qed.
Lemma OneLine_nonl b : OneLine b -> Forall (fun c => c <> nl) b.
Proof. intros H. eapply Forall_impl; [|exact H]. cbn. tauto. Qed.
Lemma file_lines_concat bs : Forall OneLine bs -> file_lines (concat (map (fun b => b ++ NL) bs)) = bs.
Proof.
  unfold file_lines. induction 1 as [|b bs Hb HF IH]; auto. cbn [map concat]. rewrite <- app_assoc.
  rewrite (getlines_line (OneLine_nonl Hb)). cbn [app]. now rewrite IH.
Qed.
Lemma NoNul_NL : NoNul NL. Proof. repeat constructor; discriminate. Qed.
Lemma concat_c_str pre bs : OneLine pre -> Forall OneLine bs -> map c_str (map (fun b => pre ++ b ++ NL) bs) = map (fun b => b ++ NL) (map (app pre) bs).
Proof.
  intros Hp HF. rewrite !map_map. apply map_ext_in. intros b Hb. rewrite Forall_forall in HF.
  rewrite c_str_id; [now rewrite app_assoc|]. apply NoNul_app; [now apply OneLine_NoNul|]. apply NoNul_app; [apply OneLine_NoNul; auto|exact NoNul_NL].
Qed.
Lemma header_c_str pre hs : Forall OneLine hs -> map (fun h => pre ++ c_str h ++ NL) hs = map (fun b => b ++ NL) (map (app pre) hs).
Proof.
  intros HF. rewrite map_map. apply map_ext_in. intros b Hb. rewrite Forall_forall in HF.
  rewrite c_str_id by (apply OneLine_NoNul; auto). now rewrite app_assoc.
Qed.
Lemma Ignorable_says ls : Forall Ignorable ls -> FileSaysL [] ls.
Proof. induction 1; constructor; auto. Qed.
Lemma Comment_ign h : Comment h -> Ignorable h /\ OneLine h.
Proof.
  intros (r & -> & HF). split.
  - exists [], (ch 35 :: r). repeat split; auto. right. exists r. reflexivity.
  - constructor; auto. split; discriminate.
Qed.

(** ---- sorted maps ---- *)
Lemma str_ltb_irr a : str_ltb a a = false.
Proof. induction a as [|x a IH]; cbn [str_ltb]; auto. now rewrite Nat.ltb_irrefl, IH. Qed.
Lemma str_ltb_trans a : forall b c, str_ltb a b = true -> str_ltb b c = true -> str_ltb a c = true.
Proof.
  induction a as [|x a IH]; intros [|y b] [|z c]; cbn [str_ltb]; try discriminate; auto.
  destruct (Nat.ltb_spec (nat_of_ascii x) (nat_of_ascii y)), (Nat.ltb_spec (nat_of_ascii y) (nat_of_ascii z)),
    (Nat.ltb_spec (nat_of_ascii x) (nat_of_ascii z)), (Nat.ltb_spec (nat_of_ascii y) (nat_of_ascii x)),
    (Nat.ltb_spec (nat_of_ascii z) (nat_of_ascii y)), (Nat.ltb_spec (nat_of_ascii z) (nat_of_ascii x)); try discriminate; try lia; auto.
  apply IH.
Qed.
Lemma str_ltb_total a : forall b, a <> b -> str_ltb a b = false -> str_ltb b a = true.
Proof.
  induction a as [|x a IH]; intros [|y b]; cbn [str_ltb]; auto; try congruence.
  destruct (Nat.ltb_spec (nat_of_ascii x) (nat_of_ascii y)), (Nat.ltb_spec (nat_of_ascii y) (nat_of_ascii x)); try discriminate; try lia; auto.
  intros HN HB. apply IH; auto. intros ->. apply HN. f_equal.
  assert (E : nat_of_ascii x = nat_of_ascii y) by lia.
  rewrite <- (ascii_nat_embedding x), <- (ascii_nat_embedding y), E. reflexivity.
Qed.
Inductive Sorted : smap -> Prop :=
| So_nil : Sorted []
| So_cons kv m : Forall (fun kv' => str_ltb (fst kv) (fst kv') = true) m -> Sorted m -> Sorted (kv :: m).
Lemma insert_sorted kv m : Sorted m -> ~ In (fst kv) (map fst m) -> Sorted (insert_kv kv m).
Proof.
  induction 1 as [|a m Ha Hm IH]; intros HN; cbn [insert_kv].
  - repeat constructor.
  - destruct (str_ltb (fst kv) (fst a)) eqn:E.
    + constructor; [|constructor; auto]. constructor; auto. eapply Forall_impl; [|exact Ha]. cbn. intros x Hx. eapply str_ltb_trans; eauto.
    + cbn in HN. constructor; [|apply IH; tauto]. apply Forall_forall. intros x Hx. apply insert_kv_in in Hx. destruct Hx as [->|Hx].
      * apply str_ltb_total; [|exact E]. intros Q. apply HN. left. symmetry. exact Q.
      * rewrite Forall_forall in Ha. auto.
Qed.
Lemma insert_keys kv m k : In k (map fst (insert_kv kv m)) <-> k = fst kv \/ In k (map fst m).
Proof.
  rewrite !in_map_iff. split.
  - intros (x & <- & Hx). apply insert_kv_in in Hx. destruct Hx as [->|Hx]; eauto.
  - intros [->|(x & <- & Hx)]; [exists kv|exists x]; (split; [reflexivity|apply insert_kv_in; auto]).
Qed.
Lemma in_order_keys m k : In k (map fst (in_order m)) <-> In k (map fst m).
Proof. rewrite !in_map_iff. split; intros (x & E & H); exists x; (split; [exact E|apply in_order_in; exact H]). Qed.
Lemma in_order_sorted m : NoDup (map fst m) -> Sorted (in_order m).
Proof.
  unfold in_order. induction m as [|a m IH]; cbn; intros H; [constructor|]. inversion H; subst.
  apply insert_sorted; auto. fold (in_order m). now rewrite in_order_keys.
Qed.
Lemma sorted_in_order m : Sorted m -> in_order m = m.
Proof.
  unfold in_order. induction 1 as [|a m Ha Hm IH]; auto. cbn [fold_right]. rewrite IH.
  destruct m as [|b m]; auto. cbn. inversion Ha as [|? ? Hb HF]; subst. now rewrite Hb.
Qed.
Lemma sorted_nodup m : Sorted m -> NoDup (map fst m).
Proof.
  induction 1 as [|a m Ha Hm IH]; cbn; constructor; auto. intros Q. apply in_map_iff in Q. destruct Q as (x & E & Hx).
  rewrite Forall_forall in Ha. specialize (Ha x Hx). rewrite E, str_ltb_irr in Ha. discriminate.
Qed.
Lemma map_get_in m k v : NoDup (map fst m) -> (map_get m k = Some v <-> In (k, v) m).
Proof.
  induction m as [|[a b] m IH]; cbn [map fst map_get In]; intros H; [split; [discriminate|tauto]|].
  inversion H as [|? ? HN HD]; subst. destruct (str_eqb k a) eqn:E.
  - apply str_eqb_true in E. subst. split; [intros Q; inversion Q; auto|]. intros [Q|Q]; [inversion Q; auto|].
    exfalso. apply HN. apply in_map_iff. exists (a, v). auto.
  - rewrite (IH HD). split; auto. intros [Q|Q]; auto. inversion Q; subst. rewrite str_eqb_refl in E. discriminate.
Qed.
Lemma map_get_in_order m k : NoDup (map fst m) -> map_get (in_order m) k = map_get m k.
Proof.
  intros H. assert (H' : NoDup (map fst (in_order m))) by (apply sorted_nodup, in_order_sorted; exact H).
  destruct (map_get m k) as [v|] eqn:E.
  - apply (map_get_in k v H'). apply in_order_in. apply (map_get_in k v H). exact E.
  - destruct (map_get (in_order m) k) as [v|] eqn:E'; auto. apply (map_get_in k v H') in E'. apply (proj1 (in_order_in _ _)) in E'.
    apply (map_get_in k v H) in E'. congruence.
Qed.
Lemma Forall2_map_map {A B C} (R : B -> C -> Prop) (f : A -> B) (h : A -> C) l : (forall x, In x l -> R (f x) (h x)) -> Forall2 R (map f l) (map h l).
Proof. induction l as [|a l IH]; intros H; cbn; constructor; auto. - apply H. now left. - apply IH. intros x Hx. apply H. now right. Qed.
Lemma map_set_new m k v : ~ In k (map fst m) -> map_set m k v = m ++ [(k, v)].
Proof.
  induction m as [|[a b] m IH]; cbn; auto. intros H. destruct (str_eqb k a) eqn:E; [apply str_eqb_true in E; subst; tauto|].
  rewrite IH; tauto.
Qed.
Lemma set_opts_new kvs : forall m, NoDup (map fst (m ++ kvs)) -> set_opts m kvs = m ++ kvs.
Proof.
  induction kvs as [|[k v] kvs IH]; intros m H; cbn [set_opts fold_left].
  - now rewrite app_nil_r.
  - change (fold_left _ kvs (map_set m (fst (k, v)) (snd (k, v)))) with (set_opts (map_set m k v) kvs).
    assert (HN : ~ In k (map fst m)).
    { rewrite map_app in H. cbn in H. apply NoDup_remove_2 in H. intros Q. apply H. apply in_or_app. auto. }
    rewrite map_set_new by exact HN. rewrite IH; rewrite <- app_assoc; auto.
Qed.

Section F.
  Variable T : Type.
  Variable N : Num T.
  Variable toR : T -> R.
  Variable finite : T -> Prop.
  Variable f4 g g5 : T -> text.
  Hypothesis PF : PrintfOK toR finite f4 g g5.

  Notation FiniteAll := (AllFinite finite (nadd N)).
  Notation ReadBack := (ReadBack toR (nadd N) (nofZ N 0)).

  Lemma finite_blocks offX offY bs : FiniteAll offX offY bs -> Forall (FiniteBlock N finite offX offY) bs.
  Proof.
    unfold AllFinite, shown. induction bs as [|b bs IH]; intros H; constructor.
    - cbn [flat_map] in H. apply Forall_app in H. destruct H as [H _]. inversion H as [|? ? Hx H']; subst. inversion H' as [|? ? Hy H'']; subst.
      cbn in Hx, Hy. split; auto. split; auto. apply Forall_forall. intros f Hf. apply Forall_forall.
      intros v Hv. rewrite Forall_forall in H''. apply (H'' (v, false)). apply in_map_iff. exists v. split; [reflexivity|]. apply in_flat_map. exists f. split; assumption.
    - apply IH. cbn [flat_map] in H. apply Forall_app in H. tauto.
  Qed.

  Lemma print_all pre os bs offX offY (errs : option (list T)) : Pre pre -> GoodModel bs -> FiniteAll offX offY bs ->
    Forall2 MadeBy os (sall bs) ->
    (match errs with None => True | Some es => List.length es = List.length (sflat bs) end) ->
    let m := mkBuilt os (flag_list (map as_blk bs)) (param_names bs) (List.length (param_names bs)) in
    exists ss, PrintModelParamsToStrings N f4 g g5 m offX offY (sflat bs) errs pre false [] [] = Ok (0%Z, ss) /\
      Lines pre (flat_map block_linesL (map (desc_b N f4 g offX offY) bs)) ss.
  Proof.
    intros HP (Hne & Hb & HG) HFin H2 He m.
    destruct (@blocks_print T N toR finite f4 g g5 PF pre HP m offX offY errs (sflat bs) bs Hb os [] [] [] H2 HG (finite_blocks HFin)
       eq_refl eq_refl eq_refl eq_refl) as (ss & E & L).
    { destruct errs; auto. lia. }
    exists ss. split; auto. unfold PrintModelParamsToStrings. cbn [andb].
    assert (HL : List.length (flag_list (map as_blk bs)) = List.length os).
    { rewrite flag_list_length, sizes_sall, map_length. symmetry. exact (Forall2_len H2). }
    cbn [Build_Model.b_funcs m].
    rewrite (@for_ext _ _ (fun n st => do o <- get os n; do flag <- get (flag_list (map as_blk bs)) n;
               pm_body N f4 g g5 pre m offX offY (sflat bs) errs (flag, o) st)).
    - rewrite (@loop_flags _ (pm_body N f4 g g5 pre m offX offY (sflat bs) errs)) by exact HL.
      cbn [List.length app] in E. rewrite E. cbn [bind snd app]. reflexivity.
    - intros i [k out] Hi. destruct (@get_lt _ os i Hi) as (o & Eo). rewrite Eo. cbn [bind].
      unfold print_centre. cbn [b_flags m]. rewrite <- HL in Hi. destruct (@get_lt _ _ i Hi) as (fl & Ef). rewrite Ef. cbn [bind].
      unfold pm_body. cbn [fst snd]. reflexivity.
  Qed.

  (** ---- the file ---- *)
  Lemma save_lines os bs offX offY errs header report : GoodModel bs -> FiniteAll offX offY bs ->
    Forall2 MadeBy os (sall bs) ->
    (match errs with None => True | Some es => List.length es = List.length (sflat bs) end) ->
    Forall Comment header -> Forall OneLine report ->
    let m := mkBuilt os (flag_list (map as_blk bs)) (param_names bs) (List.length (param_names bs)) in
    exists txt, SaveParameters N f4 g g5 header report m offX offY (sflat bs) errs = Ok txt /\
      FileSaysL (config_linesL [] (map (desc_b N f4 g offX offY) bs)) (file_lines txt).
  Proof.
    intros HG HFin H2 He HH HR m.
    destruct (@print_all [] os bs offX offY errs) as (ss & E & (bodies & -> & HO & HS)); auto.
    { split; [constructor|cbn; lia]. }
    unfold SaveParameters, PrintParameters. fold m in E. rewrite E. cbn [bind snd]. eexists. split; [reflexivity|].
    assert (HHO : Forall OneLine header) by (eapply Forall_impl; [|exact HH]; intros h Hh; apply (Comment_ign Hh)).
    rewrite (@concat_c_str [] bodies (Forall_nil _) HO).
    assert (Eh : map (fun h => c_str h ++ NL) header = map (fun b => b ++ NL) header).
    { apply map_ext_in. intros h Hh. rewrite c_str_id; auto. apply OneLine_NoNul. rewrite Forall_forall in HHO. auto. }
    rewrite Eh. rewrite (header_c_str (lit "#   ") HR).
    set (L := header ++ ([] :: lit "# Results of fit:" :: map (app (lit "#   ")) report) ++ map (app []) bodies).
    assert (EL : concat (map (fun b => b ++ NL) header) ++ NL ++ lit "# Results of fit:" ++ NL ++
        concat (map (fun b => b ++ NL) (map (app (lit "#   ")) report)) ++ concat (map (fun b => b ++ NL) (map (app []) bodies))
        = concat (map (fun b => b ++ NL) L)).
    { unfold L. rewrite !map_app, !concat_app. cbn [map concat]. rewrite <- !app_assoc. reflexivity. }
    rewrite EL.
    assert (OR : Forall OneLine (map (app (lit "#   ")) report)).
    { apply Forall_map. eapply Forall_impl; [|exact HR]. intros h Hh. apply OneLine_app; auto. apply OneLine_lit; reflexivity. }
    rewrite file_lines_concat.
    2:{ unfold L. apply Forall_app. split; auto. apply Forall_app. split.
        - constructor; [constructor|]. constructor; [apply OneLine_lit; reflexivity|exact OR].
        - rewrite map_id. exact HO. }
    unfold L, config_linesL. cbn [map]. rewrite app_assoc.
    apply (@FileSaysL_app [] _ (flat_map block_linesL (map (desc_b N f4 g offX offY) bs))).
    - apply Ignorable_says. apply Forall_app. split.
      + eapply Forall_impl; [|exact HH]. intros h Hh. apply (Comment_ign Hh).
      + constructor; [exists [], []; repeat split; auto|]. constructor; [exists [], (lit "# Results of fit:"); repeat split; auto; right; eexists; reflexivity|].
        apply Forall_map. apply Forall_forall. intros h _. exists [], (lit "#   " ++ h). repeat split; auto. right. eexists. reflexivity.
    - rewrite map_id. exact HS.
  Qed.

  Lemma save2_lines os bs offX offY header : GoodModel bs -> FiniteAll offX offY bs -> Forall2 MadeBy os (sall bs) ->
    Forall Comment header ->
    let m := mkBuilt os (flag_list (map as_blk bs)) (param_names bs) (List.length (param_names bs)) in
    exists txt, SaveParameters2 N f4 g g5 header m offX offY (sflat bs) (lit "#") = Ok txt /\ Forall Ignorable (file_lines txt).
  Proof.
    intros HG HFin H2 HH m.
    destruct (@print_all (lit "#") os bs offX offY None) as (ss & E & (bodies & -> & HO & HS)); auto.
    { split; [apply OneLine_lit; reflexivity|cbn; lia]. }
    unfold SaveParameters2, PrintParameters. fold m in E. rewrite E. cbn [bind snd]. eexists. split; [reflexivity|].
    assert (HHO : Forall OneLine header) by (eapply Forall_impl; [|exact HH]; intros h Hh; apply (Comment_ign Hh)).
    rewrite (@concat_c_str (lit "#") bodies (OneLine_lit (s := "#") eq_refl) HO).
    assert (Eh : map (fun h => c_str h ++ NL) header = map (fun b => b ++ NL) header).
    { apply map_ext_in. intros h Hh. rewrite c_str_id; auto. apply OneLine_NoNul. rewrite Forall_forall in HHO. auto. }
    rewrite Eh. set (L := header ++ [lit "#"] ++ map (app (lit "#")) bodies).
    assert (EL : concat (map (fun b => b ++ NL) header) ++ lit "#" ++ NL ++ concat (map (fun b => b ++ NL) (map (app (lit "#")) bodies))
        = concat (map (fun b => b ++ NL) L)).
    { unfold L. rewrite !map_app, !concat_app. cbn [map concat]. rewrite <- !app_assoc. reflexivity. }
    rewrite EL. rewrite file_lines_concat.
    2:{ unfold L. apply Forall_app. split; auto. constructor; [apply OneLine_lit; reflexivity|]. apply Forall_map.
        eapply Forall_impl; [|exact HO]. intros h Hh. apply OneLine_app; auto. apply OneLine_lit; reflexivity. }
    unfold L. apply Forall_app. split.
    - eapply Forall_impl; [|exact HH]. intros h Hh. apply (Comment_ign Hh).
    - constructor; [exists [], (lit "#"); repeat split; auto; right; eexists; reflexivity|].
      apply Forall_map. apply Forall_forall. intros h _. exists [], (lit "#" ++ h). repeat split; auto. right. eexists. reflexivity.
  Qed.

  (** ---- the description, read back ---- *)
  Lemma desc_funcs offX offY bs : all_funcsL (map (desc_b N f4 g offX offY) bs) = map (desc_f g) (sall bs).
  Proof. unfold all_funcsL, sall. induction bs as [|b bs IH]; auto. cbn [map flat_map]. rewrite IH, map_app. reflexivity. Qed.
  Lemma desc_starts offX offY bs : forall k, starts_fromL k (map (desc_b N f4 g offX offY) bs) = starts k (map as_blk bs).
  Proof.
    induction bs as [|b bs IH]; intros k; auto. cbn [map starts_fromL starts]. rewrite IH. cbn [desc_b bk_funcs as_blk Params_Spec.b_funcs].
    now rewrite !map_length.
  Qed.
  Definition numeral (p : T * bool) : text := if snd p then f4 (fst p) else g (fst p).
  Lemma desc_params offX offY bs : Forall Sized (sall bs) ->
    all_paramsL (map (desc_b N f4 g offX offY) bs) = map (fun p => (numeral p, LNone)) (shown (nadd N) offX offY bs).
  Proof.
    unfold all_paramsL, shown, sall. induction bs as [|b bs IH]; intros HS; auto. cbn [map flat_map] in *.
    apply Forall_app in HS. destruct HS as [H1 H2]. rewrite (IH H2), map_app. f_equal.
    unfold block_paramsL. cbn [desc_b bk_x bk_y bk_funcs map]. do 2 f_equal.
    rewrite map_map. induction H1 as [|f fs Hf HF IHf]; auto. cbn [map flat_map]. rewrite IHf, map_app. f_equal.
    cbn [desc_f fl_params]. unfold par_lines. rewrite map_map. cbn [pa_val pa_lim].
    destruct Hf as (c & Hc & Hn & Hlen). rewrite (names_of_class Hc Hn). clear -Hlen.
    revert Hlen. generalize (c_params c). induction (s_vals f) as [|v vs IH]; intros [|n ns] H; cbn in *; try discriminate; auto.
    f_equal. apply IH. lia.
  Qed.
  Lemma desc_opts f : opts_of (desc_f g f) = in_order (kept f).
  Proof.
    unfold opts_of, desc_f, extra_of, kept. cbn [fl_opts]. destruct (in_order (s_opts f)) as [|[k v] t] eqn:E; auto.
    change (list_ascii_of_string "method") with (lit "method"). change (list_ascii_of_string "PointSource") with PS.
    destruct (str_eqb k (lit "method")) eqn:E1.
    - apply str_eqb_true in E1. subst k. destruct (str_eqb (s_name f) PS) eqn:E2.
      + apply str_eqb_true in E2. destruct (list_eq_dec ascii_dec (s_name f) PS); [|congruence].
        destruct (list_eq_dec ascii_dec (lit "method") (lit "method")); [|congruence]. reflexivity.
      + destruct (list_eq_dec ascii_dec (s_name f) PS) as [e|]; [rewrite e, str_eqb_refl in E2; discriminate|].
        destruct (str_eqb (s_name f) PSR); reflexivity.
    - destruct (list_eq_dec ascii_dec (s_name f) PS); auto. destruct (list_eq_dec ascii_dec k (lit "method")) as [e0|]; auto.
      rewrite e0, str_eqb_refl in E1. discriminate.
  Qed.
  Lemma kept_nodup (f : sfunc T) : NoDup (map fst (s_opts f)) -> NoDup (map fst (kept f)).
  Proof.
    intros H. unfold kept. destruct (in_order (s_opts f)) as [|[k v] t]; [constructor|].
    destruct (list_eq_dec _ _ _); [|constructor]. destruct (list_eq_dec _ _ _); [exact H|constructor].
  Qed.

  Lemma shown_length offX offY bs : List.length (shown (nadd N) offX offY bs) = List.length (sflat bs).
  Proof.
    induction bs as [|b bs IH]; auto. rewrite sflat_cons. unfold shown in *. cbn [flat_map List.length]. rewrite !app_length, IH. cbn [List.length].
    rewrite map_length. reflexivity.
  Qed.

  Lemma read_back strtod IsNumeric os bs offX offY errs header report : AcceptsDecimals IsNumeric ->
    GoodModel bs -> FiniteAll offX offY bs -> Forall2 MadeBy os (sall bs) ->
    (match errs with None => True | Some es => List.length es = List.length (sflat bs) end) ->
    Forall Comment header -> Forall OneLine report ->
    let m := mkBuilt os (flag_list (map as_blk bs)) (param_names bs) (List.length (param_names bs)) in
    exists txt, SaveParameters N f4 g g5 header report m offX offY (sflat bs) errs = Ok txt /\
      (exists out, ReadConfigFile_full N strtod IsNumeric (file_lines txt) true [] = Ok (0%Z, Some (out, [])) /\ ReadBack strtod offX offY bs out) /\
      (forall opt0, exists out, ReadConfigFile_limited N strtod IsNumeric (file_lines txt) true opt0 = Ok (0%Z, Some (out, [])) /\ ReadBack strtod offX offY bs out).
  Proof.
    intros HA HG HFin H2 He HH HR m.
    destruct (save_lines HG HFin H2 He HH HR) as (txt & E & HS). exists txt. split; [exact E|].
    destruct HG as (Hne & Hb & HGf).
    assert (HSz : Forall Sized (sall bs)) by (eapply Forall_impl; [|exact HGf]; cbn; tauto).
    assert (HNe : all_funcsL (map (desc_b N f4 g offX offY) bs) <> []).
    { rewrite desc_funcs. destruct bs as [|b bs]; [congruence|]. inversion Hb; subst. unfold sall. cbn [flat_map].
      destruct (s_funcs b); [congruence|discriminate]. }
    assert (HNb : map (desc_b N f4 g offX offY) bs <> []) by (destruct bs; [congruence|discriminate]).
    assert (Hnum : forall p, In p (shown (nadd N) offX offY bs) -> exists r, Decimal (numeral p) r /\
       (if snd p then Rabs (r - toR (fst p)) <= 5 / 100000 else Rabs (r - toR (fst p)) <= 5 / 1000000 * Rabs (toR (fst p)))%R).
    { intros p Hp. unfold AllFinite in HFin. rewrite Forall_forall in HFin. specialize (HFin p Hp). unfold numeral.
      destruct (snd p); [exact (@f4_value _ _ _ _ _ _ PF _ HFin)|exact (@g_value _ _ _ _ _ _ PF _ HFin)]. }
    assert (RB : forall out, ReadsTo N strtod (map (desc_b N f4 g offX offY) bs) out -> ReadBack strtod offX offY bs out).
    { intros out (A1 & A2 & A3 & A4 & A5 & A6 & A7). rewrite desc_funcs in *. rewrite (desc_params offX offY HSz) in *.
      split; [|split; [|split; [|split; [|split; [|split]]]]].
      - rewrite A1, map_map. reflexivity.
      - rewrite A2, map_map. reflexivity.
      - rewrite A5. apply desc_starts.
      - rewrite A3, map_map. cbn [fst]. apply Forall2_map_l. intros p Hp. destruct (Hnum p Hp) as (r & D & B). exists (numeral p), r. auto.
      - rewrite A7, map_map. rewrite <- (map_id (sall bs)) at 2. apply Forall2_map_map. intros f Hf.
        assert (HO : NoDup (map fst (kept f))).
        { apply kept_nodup. rewrite Forall_forall in HGf. destruct (HGf f Hf) as (_ & _ & HO & _). exact HO. }
        rewrite desc_opts, set_opts_new.
        + cbn [app]. split; [apply sorted_nodup, in_order_sorted; exact HO|]. intros k. apply map_get_in_order. exact HO.
        + cbn [app]. apply sorted_nodup, in_order_sorted. exact HO.
      - rewrite A6. generalize (shown (nadd N) offX offY bs). intros l. induction l as [|a l IH]; [reflexivity|]. cbn [map existsb snd found]. exact IH.
      - rewrite A4, map_map. cbn [snd entry]. rewrite <- (shown_length offX offY bs). generalize (shown (nadd N) offX offY bs). intros l. induction l as [|a l IH]; [reflexivity|]. cbn [map List.length repeat]. rewrite IH. reflexivity. }
    destruct (@round_tripL T N strtod IsNumeric [] (map (desc_b N f4 g offX offY) bs) (file_lines txt) HS HNb HNe) as [(o1 & E1 & R1) HL].
    { rewrite (desc_params offX offY HSz), map_map. cbn [fst snd]. apply Forall_map. apply Forall_forall. intros p Hp.
      destruct (Hnum p Hp) as (r & D & _). split; [exact (HA _ _ D)|exact I]. }
    split; [exists o1; auto|]. intros opt0. destruct (HL opt0) as (o2 & E2 & R2). exists o2. auto.
  Qed.
End F.

(** ---- building the model again ---- *)
Lemma sorted_same a : Sorted a -> forall b, Sorted b -> (forall x, In x a <-> In x b) -> a = b.
Proof.
  induction 1 as [|x a Hx Ha IH]; intros b Hb HI.
  - destruct b as [|y b]; auto. destruct (proj2 (HI y)). now left.
  - destruct Hb as [|y b Hy Hb].
    + destruct (proj1 (HI x)). now left.
    + rewrite Forall_forall in Hx, Hy.
      assert (x = y).
      { destruct (proj1 (HI x) (or_introl eq_refl)) as [E|E]; [auto|]. destruct (proj2 (HI y) (or_introl eq_refl)) as [E'|E']; [auto|].
        specialize (Hy _ E). specialize (Hx _ E'). pose proof (str_ltb_trans Hx Hy) as Q. rewrite str_ltb_irr in Q. discriminate. }
      subst y. f_equal. apply IH; auto. intros z. split; intros Hz.
      * destruct (proj1 (HI z) (or_intror Hz)) as [E|E]; auto. subst z. specialize (Hx _ Hz). rewrite str_ltb_irr in Hx. discriminate.
      * destruct (proj2 (HI z) (or_intror Hz)) as [E|E]; auto. subst z. specialize (Hy _ Hz). rewrite str_ltb_irr in Hy. discriminate.
Qed.
Lemma in_order_same m m' : NoDup (map fst m) -> NoDup (map fst m') -> (forall k, map_get m k = map_get m' k) -> in_order m = in_order m'.
Proof.
  intros H H' HG. apply sorted_same; [apply in_order_sorted; auto|apply in_order_sorted; auto|].
  intros [k v]. rewrite !in_order_in, <- !map_get_in by auto. now rewrite HG.
Qed.

Section Again.
  Variable T : Type.
  Implicit Types f : sfunc T.
  Definition same_o (o o' : fobj) : Prop :=
    fo_class o' = fo_class o /\ fo_label o' = fo_label o /\ fo_method o' = fo_method o /\ fo_interp o' = fo_interp o.
  Definition again f f' : Prop :=
    s_name f' = s_name f /\ s_label f' = s_label f /\ in_order (s_opts f') = in_order (kept f).
  Lemma kind_of_name c f : find_class classes (s_name f) = Some c ->
    (c_kind c = KPoint <-> s_name f = PS) /\ (c_kind c = KPointRot <-> s_name f = PSR).
  Proof. intros H. apply find_class_sound in H. destruct H as [Hc Hn]. rewrite <- Hn. pose proof (kind_name Hc) as K.
    destruct (c_kind c).
    - destruct K. split; split; intros Q; try discriminate; contradiction.
    - rewrite K. split; split; intros Q; try reflexivity; discriminate.
    - rewrite K. split; split; intros Q; try reflexivity; discriminate.
  Qed.
  Lemma make_again f f' o : again f f' -> (s_name f = PSR -> s_opts f = []) -> make f = Some o ->
    exists o', make f' = Some o' /\ same_o o o'.
  Proof.
    intros (En & El & Eo) HR. unfold make. rewrite En, El. destruct (find_class classes (s_name f)) as [c|] eqn:Ec; [|discriminate].
    destruct (kind_of_name Ec) as [KP KR].
    assert (plain : kept f = [] -> s_opts f' = []).
    { intros Q. rewrite Q in Eo. apply in_order_nil. exact Eo. }
    destruct (s_opts f) as [|kv t] eqn:Es.
    - assert (K0 : kept f = []) by (unfold kept; rewrite Es; reflexivity).
      rewrite (plain K0). intros E. inversion E; subst. cbn. eexists. split; [reflexivity|]. repeat split.
    - rewrite <- Es. assert (Hio : in_order (s_opts f) <> []) by (intros Q; apply in_order_nil in Q; congruence).
      unfold SetExtraParams. cbn [fo_class new_object fo_label fo_interp].
      destruct (c_kind c) eqn:Ek.
      + discriminate.
      + pose proof (proj1 KP eq_refl) as HPS.
        destruct (in_order (s_opts f)) as [|[key v] t'] eqn:Eio; [congruence|].
        assert (EK : kept f = if list_eq_dec ascii_dec key (list_ascii_of_string "method") then s_opts f else []).
        { unfold kept. rewrite Eio. destruct (list_eq_dec ascii_dec (s_name f) (list_ascii_of_string "PointSource")) as [|Q]; auto.
          exfalso. apply Q. exact HPS. }
        destruct (str_eqb key (lit "method")) eqn:Em.
        * apply str_eqb_true in Em. subst key. destruct (list_eq_dec ascii_dec (lit "method") (list_ascii_of_string "method")) as [_|Q]; [|exfalso; apply Q; reflexivity].
          rewrite EK, Eio in Eo. destruct (s_opts f') as [|kv' t2] eqn:Es'; [discriminate|]. rewrite Eo. rewrite str_eqb_refl.
          repeat match goal with |- context [if ?b then _ else _] => destruct b end; cbn; intros E; try discriminate;
            inversion E; subst; eexists; (split; [reflexivity|]); repeat split.
        * destruct (list_eq_dec ascii_dec key (list_ascii_of_string "method")) as [Q|_].
          { subst key. change (list_ascii_of_string "method") with (lit "method") in Em. rewrite str_eqb_refl in Em. discriminate. }
          rewrite (plain EK). cbn. intros E. inversion E; subst. eexists. split; [reflexivity|]. repeat split.
      + specialize (HR (proj1 KR eq_refl)). discriminate.
  Qed.

  Lemma step_again psf m1 m1' f f' m2 : again f f' -> (s_name f = PSR -> s_opts f = []) ->
    Forall2 same_o (fm_funcs m1) (fm_funcs m1') -> fm_interp m1' = fm_interp m1 -> step psf m1 f = inr m2 ->
    exists m2', step psf m1' f' = inr m2' /\ Forall2 same_o (fm_funcs m2) (fm_funcs m2') /\ fm_interp m2' = fm_interp m2.
  Proof.
    intros HA HR H2 Hi HS.
    assert (St : forall (h : sfunc T) m, step psf m h =
        match make h with Some o => let (s2, m') := AddFunction psf m o in if (s2 <? 0)%Z then inl s2 else inr m'
        | None => step psf m h end).
    { intros h m. unfold step, make. destruct (find_class _ _); auto.
      destruct (match s_opts h with [] => _ | _ => _ end) as [s o]. destruct (s <? 0)%Z; auto. }
    assert (Hm : exists o, make f = Some o).
    { unfold step in HS. unfold make. destruct (find_class _ _); [|discriminate].
      destruct (match s_opts f with [] => _ | _ => _ end) as [s o]. destruct (s <? 0)%Z; [discriminate|eauto]. }
    destruct Hm as (o & Ho). destruct (make_again HA HR Ho) as (o' & Ho' & (C1 & C2 & C3 & C4)).
    rewrite St, Ho in HS. rewrite St, Ho'.
    unfold AddFunction in *. assert (P : is_point o' = is_point o) by (unfold is_point; now rewrite C1). rewrite P, Hi, C3.
    assert (App : forall a a', same_o a a' -> Forall2 same_o (fm_funcs m1 ++ [a]) (fm_funcs m1' ++ [a'])).
    { intros a a' Q. apply Forall2_app; auto. }
    assert (Hand : forall i, same_o (hand o i) (hand o' i)) by (intros i; repeat split; auto).
    destruct (is_point o).
    - destruct (fm_interp m1) as [i|].
      + inversion HS; subst. eexists. split; [reflexivity|]. cbn. split; auto.
      + destruct (SetupPsfInterpolation psf (interpolationMap (fo_method o))) as [res i].
        destruct (res <? 0)%Z; [discriminate|]. inversion HS; subst. eexists. split; [reflexivity|]. cbn. split; auto.
    - inversion HS; subst. eexists. split; [reflexivity|]. cbn. split; [|reflexivity]. apply App. repeat split; auto.
  Qed.
  Lemma steps_again psf fs fs' : Forall2 again fs fs' -> Forall (fun f => s_name f = PSR -> s_opts f = []) fs ->
    forall m1 m1' m2, Forall2 same_o (fm_funcs m1) (fm_funcs m1') -> fm_interp m1' = fm_interp m1 -> steps psf fs (inr m1) = inr m2 ->
    exists m2', steps psf fs' (inr m1') = inr m2' /\ Forall2 same_o (fm_funcs m2) (fm_funcs m2').
  Proof.
    induction 1 as [|f f' fs fs' Hf HF IH]; intros HR m1 m1' m2 H2 Hi HS.
    - cbn in *. inversion HS; subst. eauto.
    - inversion HR as [|? ? HRf HRs]; subst. unfold steps in *. cbn [fold_left] in *.
      destruct (step psf m1 f) as [s|m3] eqn:E3.
      + fold (steps psf fs (inl s)) in HS. rewrite steps_inl in HS. discriminate.
      + destruct (step_again Hf HRf H2 Hi E3) as (m3' & E3' & H3 & I3). rewrite E3'. exact (IH HRs m3 m3' m2 H3 I3 HS).
  Qed.

  Lemma rebuild psf (bs : list (sblock T)) m opts' :
    AddFunctions psf (map s_name (sall bs)) (map s_label (sall bs)) (sstarts bs) (map s_opts (sall bs)) = Ok (0%Z, Some m) ->
    Forall (fun f => s_name f = PSR -> s_opts f = []) (sall bs) ->
    Forall2 (fun mp f => in_order mp = in_order (kept f)) opts' (sall bs) ->
    exists m', AddFunctions psf (map s_name (sall bs)) (map s_label (sall bs)) (sstarts bs) opts' = Ok (0%Z, Some m') /\ SameModel m m'.
  Proof.
    intros HB HR HO.
    assert (Hz : exists fs', map s_name fs' = map s_name (sall bs) /\ map s_label fs' = map s_label (sall bs) /\
       map s_opts fs' = opts' /\ Forall2 again (sall bs) fs').
    { clear -HO. induction HO as [|mp f ms fs H HF IH]; [exists []; repeat split; auto|].
      destruct IH as (fs' & A & B & C & D). exists (mkSfunc (s_name f) (s_label f) mp (s_vals f) :: fs').
      cbn. rewrite A, B, C. repeat split; auto. constructor; auto. repeat split. exact H. }
    destruct Hz as (fs' & A & B & C & D). rewrite <- A, <- B, <- C. revert HB. unfold AddFunctions. rewrite !add_loop. cbn [bind].
    destruct (steps psf (sall bs) _) as [s|m2] eqn:E; [discriminate|].
    destruct (steps_again D HR (m1 := mkFmodel [] None) (m1' := mkFmodel [] None) (Forall2_nil _) eq_refl E) as (m2' & E' & H2). rewrite E'.
    rewrite <- (Forall2_len H2).
    destruct (DefineFunctionSets _ _) as [flags| | |]; cbn [bind]; try discriminate.
    assert (EP : PopulateParameterNames (fm_funcs m2') flags = PopulateParameterNames (fm_funcs m2) flags).
    { unfold PopulateParameterNames. rewrite <- (Forall2_len H2). apply for_ext. intros i labels Hi.
      destruct (@get_lt _ (fm_funcs m2) i Hi) as (o & Eo). rewrite Eo.
      rewrite (Forall2_len H2) in Hi. destruct (@get_lt _ (fm_funcs m2') i Hi) as (o' & Eo'). rewrite Eo'. cbn [bind].
      apply get_Ok_iff in Eo, Eo'.
      assert (Q : same_o o o').
      { clear -H2 Eo Eo'. revert i Eo Eo'. induction H2 as [|x y l l' Hxy HF IH]; intros [|i]; cbn; intros P Q; try discriminate.
        - inversion P; inversion Q; subst; auto.
        - eauto. }
      destruct Q as (Q & _). unfold GetParameterNames. rewrite Q. reflexivity. }
    rewrite EP. clear EP. destruct (PopulateParameterNames (fm_funcs m2) flags) as [pl| | |]; cbn [bind]; try discriminate.
    intros Q. inversion Q; subst. eexists. split; [reflexivity|]. unfold SameModel. cbn [b_flags b_labels b_nParamsTot Build_Model.b_funcs].
    repeat split; auto. f_equal. clear -H2. induction H2 as [|x y l l' (Hxy & _) HF IH]; cbn; auto. unfold GetParameterNames in *. now rewrite Hxy, IH.
  Qed.
End Again.

Lemma save_read :
  forall (T : Type) (N : Num T) (toR : T -> R) (finite : T -> Prop) (f4 g g5 : T -> str)
         (strtod : str -> T) (IsNumeric : str -> bool)
         (psf : option (Z * Z)) (bs : list (sblock T)) m offX offY errs header report,
  PrintfOK toR finite f4 g g5 -> AcceptsDecimals IsNumeric ->
  AddFunctions psf (map s_name (sall bs)) (map s_label (sall bs)) (sstarts bs) (map s_opts (sall bs)) = Ok (0%Z, Some m) ->
  GoodModel bs -> AllFinite finite (nadd N) offX offY bs -> ErrorsFor errs bs ->
  Forall Comment header -> Forall OneLine report ->
  exists txt, SaveParameters N f4 g g5 header report m offX offY (sflat bs) errs = Ok txt /\
    (exists out, ReadConfigFile_full N strtod IsNumeric (file_lines txt) true [] = Ok (0%Z, Some (out, [])) /\
       ReadBack toR (nadd N) (nofZ N 0) strtod offX offY bs out) /\
    (forall opt0, exists out, ReadConfigFile_limited N strtod IsNumeric (file_lines txt) true opt0 = Ok (0%Z, Some (out, [])) /\
       ReadBack toR (nadd N) (nofZ N 0) strtod offX offY bs out).
Proof.
  intros T N toR finite f4 g g5 sd isn psf bs m offX offY errs header report PF HA HB HG HF HE HH HR.
  pose proof HG as (Hne & Hb & _).
  destruct (@add_functions_ok T psf bs Hne Hb) as [(s & Hs & E & _)|(os & E & _ & H2 & _)]; rewrite E in HB; inversion HB; subst.
  exact (@read_back T N toR finite f4 g g5 PF sd isn os bs offX offY errs header report HA HG HF H2 HE HH HR).
Qed.

Lemma save_commented :
  forall (T : Type) (N : Num T) (toR : T -> R) (finite : T -> Prop) (f4 g g5 : T -> str)
         (psf : option (Z * Z)) (bs : list (sblock T)) m offX offY header,
  PrintfOK toR finite f4 g g5 ->
  AddFunctions psf (map s_name (sall bs)) (map s_label (sall bs)) (sstarts bs) (map s_opts (sall bs)) = Ok (0%Z, Some m) ->
  GoodModel bs -> AllFinite finite (nadd N) offX offY bs -> Forall Comment header ->
  exists txt, SaveParameters2 N f4 g g5 header m offX offY (sflat bs) (lit "#") = Ok txt /\ Forall Ignorable (file_lines txt).
Proof.
  intros T N toR finite f4 g g5 psf bs m offX offY header PF HB HG HF HH.
  pose proof HG as (Hne & Hb & _).
  destruct (@add_functions_ok T psf bs Hne Hb) as [(s & Hs & E & _)|(os & E & _ & H2 & _)]; rewrite E in HB; inversion HB; subst.
  exact (@save2_lines T N toR finite f4 g g5 PF os bs offX offY header HG HF H2 HH).
Qed.

Lemma read_rebuild :
  forall (T : Type) (toR : T -> R) (add : T -> T -> T) (zero : T) (strtod : str -> T)
         (psf : option (Z * Z)) (bs : list (sblock T)) m offX offY out,
  AddFunctions psf (map s_name (sall bs)) (map s_label (sall bs)) (sstarts bs) (map s_opts (sall bs)) = Ok (0%Z, Some m) ->
  GoodModel bs -> Forall (fun f => s_name f = PSR -> s_opts f = []) (sall bs) ->
  ReadBack toR add zero strtod offX offY bs out ->
  exists m', AddFunctions psf (o_names out) (o_labels out) (o_starts out) (o_opt out) = Ok (0%Z, Some m') /\ SameModel m m'.
Proof.
  intros T toR add zero sd psf bs m offX offY out HB HG HR (E1 & E2 & E3 & _ & EO & _). rewrite E1, E2, E3.
  apply rebuild; auto. destruct HG as (_ & _ & HG). clear -EO HG.
  induction EO as [|mp f ms fs (Hn & Hg) HF IH]; constructor.
  - inversion HG as [|? ? (_ & _ & HO & _) _]; subst. apply in_order_same; auto. apply kept_nodup. exact HO.
  - apply IH. inversion HG; auto.
Qed.
