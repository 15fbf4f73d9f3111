From Coq Require Import Ascii String List ZArith Lia Bool.
From Verif Require Import CmdLine_Model StrUtil_Spec StrUtil_Proof CmdLine_Spec.
Local Open Scope list_scope.
Set Implicit Arguments.
Unset Strict Implicit.

Definition register (regs : list reg) (p : clp) : clp :=
  fold_left (fun p r => AddObj (rg_flag r) (rg_queue r) (rg_names r) p) regs p.

Lemma strip_dashes d n : dashes d -> n <> [] -> not_dash_first n -> StripLeadingDashes (d ++ n) = Ok n.
Proof.
  intros [Hd Fd] Hn Hf. destruct n as [|c n]; [congruence|].
  unfold StripLeadingDashes. destruct (d ++ c :: n) eqn:E.
  { destruct d; discriminate. }
  rewrite <- E.
  assert (Ef : find_first_not_of (d ++ c :: n) [dash] (Some 0) = Some (0 + List.length d)).
  { unfold find_first_not_of. apply (@find_p_app (fun c => negb (is_in [dash] c)) d c n []).
    - eapply Forall_impl; [|exact Fd]. simpl. intros a0 ->. reflexivity.
    - assert (c <> dash) by (apply (Hf c n eq_refl)).
      unfold is_in. simpl. rewrite (ch_eqb_false H). reflexivity. }
  rewrite Ef. unfold substr. simpl plus.
  destruct (List.length (d ++ c :: n) <? List.length d) eqn:L.
  { apply Nat.ltb_lt in L. rewrite app_length in L. lia. }
  f_equal. apply skipn_app_len.
Qed.

Lemma dashes_first d n : dashes d -> exists r, d ++ n = dash :: r.
Proof. intros [Hd Fd]. destruct d as [|c d]; [congruence|]. inversion Fd; subst. simpl. eauto. Qed.

Lemma lookup_add_names names k : forall m n, lookup (add_names names k m) n =
  if existsb (str_eqb n) names then Some k else lookup m n.
Proof.
  unfold add_names. induction names as [|a names IH]; intros m n; simpl; auto.
  rewrite IH. simpl. destruct (str_eqb n a); simpl; auto. destruct (existsb (str_eqb n) names); auto.
Qed.

Lemma existsb_str n l : existsb (str_eqb n) l = true <-> In n l.
Proof.
  rewrite existsb_exists. split.
  - intros (x & Hx & E). apply str_eqb_true in E. now subst.
  - intros H. exists n. split; auto. apply str_eqb_refl.
Qed.

Definition new_obj (r : reg) : optobj := mkOpt (rg_flag r) (rg_queue r) false false [].

Lemma register_fields regs : forall p,
  cl_objs (register regs p) = cl_objs p ++ map new_obj regs /\
  cl_args (register regs p) = cl_args p /\ cl_empty (register regs p) = cl_empty p /\
  cl_ignore (register regs p) = cl_ignore p.
Proof.
  unfold register. induction regs as [|r regs IH]; intros p; simpl.
  - rewrite app_nil_r. auto.
  - destruct (IH (AddObj (rg_flag r) (rg_queue r) (rg_names r) p)) as (E1 & E2 & E3 & E4).
    rewrite E1, E2, E3, E4. simpl. rewrite <- app_assoc. auto.
Qed.

(** what the map answers after registration *)
Lemma register_lookup regs : NoDup (flat_map rg_names regs) -> forall p n,
  (forall k r, nth_error regs k = Some r -> In n (rg_names r) ->
     lookup (cl_map (register regs p)) n = Some (List.length (cl_objs p) + k)) /\
  ((forall r, In r regs -> ~ In n (rg_names r)) -> lookup (cl_map (register regs p)) n = lookup (cl_map p) n).
Proof.
  unfold register. induction regs as [|r0 regs IH]; intros ND p n; simpl; split.
  - intros [|k] r H; discriminate.
  - auto.
  - intros k r Hk Hin. simpl in ND.
    assert (ND2 : NoDup (flat_map rg_names regs)).
    { clear -ND. induction (rg_names r0); simpl in *; auto. inversion ND; auto. }
    assert (Disj : forall r', In r' regs -> forall m, In m (rg_names r0) -> ~ In m (rg_names r')).
    { intros r' Hr' m Hm Hm'. clear -ND Hr' Hm Hm'. induction (rg_names r0) as [|a l IHl]; [destruct Hm|].
      simpl in ND. inversion ND; subst. destruct Hm as [->|Hm]; [|auto].
      apply H1. apply in_or_app. right. apply in_flat_map. eauto. }
    destruct (IH ND2 (AddObj (rg_flag r0) (rg_queue r0) (rg_names r0) p) n) as [A B].
    destruct k as [|k]; simpl in Hk.
    + inversion Hk; subst r0. rewrite B.
      * simpl. rewrite lookup_add_names. apply existsb_str in Hin. rewrite Hin. f_equal. lia.
      * intros r' Hr' H'. exact (Disj r' Hr' n Hin H').
    + rewrite (A k r Hk Hin). simpl. rewrite app_length. simpl. f_equal. lia.
  - intros Hno. simpl in ND.
    assert (ND2 : NoDup (flat_map rg_names regs)).
    { clear -ND. induction (rg_names r0); simpl in *; auto. inversion ND; auto. }
    destruct (IH ND2 (AddObj (rg_flag r0) (rg_queue r0) (rg_names r0) p) n) as [_ B].
    rewrite B by auto. simpl. rewrite lookup_add_names.
    destruct (existsb (str_eqb n) (rg_names r0)) eqn:E; auto.
    apply existsb_str in E. exfalso. apply (Hno r0); auto.
Qed.

Section Parse.
  Variable regs : list reg.
  Hypothesis ND : NoDup (flat_map rg_names regs).

  (** decidable counterparts of the specification *)
  Definition fg (r : reg) (it : item) : bool :=
    match it with UFlag n => existsb (str_eqb n) (rg_names r) | _ => false end.
  Definition vals (r : reg) (it : item) : list str :=
    match it with
    | UOpt n v | UOptEq n v => if existsb (str_eqb n) (rg_names r) then [v] else []
    | _ => []
    end.
  Definition obj_of (its : list item) (r : reg) : optobj :=
    mkOpt (rg_flag r) (rg_queue r) (existsb (fg r) its)
          (match flat_map (vals r) its with [] => false | _ => true end) (flat_map (vals r) its).

  Lemma unique_owner n i j r r' : nth_error regs i = Some r -> nth_error regs j = Some r' ->
    In n (rg_names r) -> In n (rg_names r') -> i = j.
  Proof.
    intros Hi Hj H1 H2.
    destruct (register_lookup ND newParser n) as [A _].
    pose proof (A i r Hi H1) as E1. pose proof (A j r' Hj H2) as E2. rewrite E1 in E2. simpl in E2. congruence.
  Qed.

  Lemma list_ext {A} (a b : list A) : (forall i, nth_error a i = nth_error b i) -> a = b.
  Proof.
    revert b; induction a as [|x a IH]; intros [|y b] H; auto.
    - specialize (H 0). discriminate.
    - specialize (H 0). discriminate.
    - pose proof (H 0) as H0. simpl in H0. inversion H0; subst. f_equal. apply IH. intros i. exact (H (S i)).
  Qed.

  (** adding an item that concerns the object [k] only *)
  Lemma obj_step its it n k r o :
    nth_error regs k = Some r -> In n (rg_names r) ->
    (forall r', fg r' it = existsb (str_eqb n) (rg_names r') && fg r it) ->
    (forall r', vals r' it = if existsb (str_eqb n) (rg_names r') then vals r it else []) ->
    o = obj_of (its ++ [it]) r ->
    upd (map (obj_of its) regs) k o = map (obj_of (its ++ [it])) regs.
  Proof.
    intros Hk Hin Hf Hv ->. apply list_ext. intros i. rewrite nth_error_upd.
    assert (Lk : k < List.length (map (obj_of its) regs)).
    { rewrite map_length. apply nth_error_Some. congruence. }
    apply Nat.ltb_lt in Lk. rewrite Lk, andb_true_r.
    destruct (k =? i) eqn:E.
    - apply Nat.eqb_eq in E. subst i. rewrite nth_error_map, Hk. reflexivity.
    - rewrite !nth_error_map. destruct (nth_error regs i) as [r'|] eqn:Ei; auto. simpl. f_equal.
      assert (Hno : existsb (str_eqb n) (rg_names r') = false).
      { destruct (existsb (str_eqb n) (rg_names r')) eqn:Ex; auto. apply existsb_str in Ex.
        pose proof (unique_owner Hk Ei Hin Ex). apply Nat.eqb_neq in E. congruence. }
      unfold obj_of. rewrite existsb_app, flat_map_app. simpl. rewrite Hf, Hv, Hno. simpl.
      rewrite orb_false_r, app_nil_r. reflexivity.
  Qed.

  Definition state_of (ignore : bool) (its : list item) : clp :=
    mkClp (map (obj_of its) regs) (cl_map (register regs newParser)) (positional its)
          (match its with [] => true | _ => false end) ignore.

  Lemma positional_app a b : positional (a ++ b) = positional a ++ positional b.
  Proof. induction a as [|it a IH]; simpl; auto. destruct it; simpl; auto. now rewrite IH. Qed.

  Lemma app_nonempty {A B} (a : list A) x (u v : B) : match a ++ [x] with [] => u | _ => v end = v.
  Proof. destruct a; reflexivity. Qed.

  Lemma isreg_index flag n : IsReg flag regs n ->
    exists k r, nth_error regs k = Some r /\ In n (rg_names r) /\ rg_flag r = flag /\
                lookup (cl_map (register regs newParser)) n = Some k.
  Proof.
    intros (r & Hr & Hn & Hf). apply In_nth_error in Hr. destruct Hr as (k & Hk).
    exists k, r. repeat split; auto. destruct (register_lookup ND newParser n) as [A _].
    rewrite (A k r Hk Hn). reflexivity.
  Qed.

  Lemma flat_vals_opt r n v its : In n (rg_names r) ->
    vals r (UOpt n v) = [v] /\ vals r (UOptEq n v) = [v] /\ flat_map (vals r) (its ++ [UOpt n v]) = flat_map (vals r) its ++ [v]
    /\ flat_map (vals r) (its ++ [UOptEq n v]) = flat_map (vals r) its ++ [v].
  Proof.
    intros H. apply existsb_str in H. repeat split; rewrite ?flat_map_app; simpl; rewrite H; auto.
  Qed.

  Lemma parse_line ig its ws : Line regs its ws ->
    (ig = true \/ Forall (fun it => forall w, it <> UUnknown w) its) ->
    forall more done, parse_args (ws ++ more) (state_of ig done) = parse_args more (state_of ig (done ++ its)).
  Proof.
    induction 1 as [|it ws its rest HW HL IH]; intros Hig more done.
    - simpl. now rewrite app_nil_r.
    - assert (Hig' : ig = true \/ Forall (fun it => forall w, it <> UUnknown w) its).
      { destruct Hig as [H|H]; [left; auto|right; inversion H; auto]. }
      specialize (IH Hig' more).
      replace (done ++ it :: its) with ((done ++ [it]) ++ its) by now rewrite <- app_assoc.
      inversion HW as [n d Hd Hn Hr|n v d Hd Hn Hr|n v d Hd Hn Hv Hve Hr|w Hw|n d Hd Hn Hr1 Hr2]; subst.
      + (* flag *)
        destruct (isreg_index Hr) as (k & r & Hk & Hin & Hf & Hl).
        destruct Hn as (Nn & Nd & Ne).
        cbn [app parse_args]. destruct (dashes_first n Hd) as (q & Eq). rewrite Eq, ch_eqb_refl, <- Eq.
        rewrite (strip_dashes Hd Nn Nd). cbn [bind].
        destruct n as [|c n]; [congruence|]. cbn [List.length Nat.ltb Nat.leb].
        rewrite SplitString_one by exact Ne. cbn [bind]. unfold get at 1. cbn [nth_error bind].
        cbn [state_of cl_map cl_objs]. rewrite Hl.
        unfold get at 1. rewrite nth_error_map, Hk. cbn [option_map bind].
        cbn [obj_of ob_flag]. rewrite Hf.
        rewrite set_lt by (rewrite map_length; apply nth_error_Some; congruence). cbn [bind].
        rewrite <- (IH (done ++ [UFlag (c :: n)])). f_equal.
        unfold with_objs, state_of; cbn [cl_map cl_args cl_empty cl_ignore].
        rewrite app_nonempty, positional_app. cbn [positional]. rewrite app_nil_r. f_equal.
        apply (@obj_step done (UFlag (c :: n)) (c :: n) k r); auto.
        * intros r'. cbn [fg]. apply existsb_str in Hin. rewrite Hin, andb_true_r. reflexivity.
        * intros r'. cbn [vals]. destruct (existsb _ _); reflexivity.
        * unfold obj_of, SetFlag. rewrite existsb_app, flat_map_app, Hf.
          cbn [ob_flag ob_queue ob_targetSet ob_targets existsb flat_map fg vals].
          apply existsb_str in Hin. rewrite Hin. cbn [app orb]. rewrite app_nil_r, !orb_true_r. reflexivity.
      + (* option, separate value *)
        destruct (isreg_index Hr) as (k & r & Hk & Hin & Hf & Hl).
        destruct Hn as (Nn & Nd & Ne).
        cbn [app parse_args]. destruct (dashes_first n Hd) as (q & Eq). rewrite Eq, ch_eqb_refl, <- Eq.
        rewrite (strip_dashes Hd Nn Nd). cbn [bind].
        destruct n as [|c n]; [congruence|]. cbn [List.length Nat.ltb Nat.leb].
        rewrite SplitString_one by exact Ne. cbn [bind]. unfold get at 1. cbn [nth_error bind].
        cbn [state_of cl_map cl_objs]. rewrite Hl.
        unfold get at 1. rewrite nth_error_map, Hk. cbn [option_map bind].
        cbn [obj_of ob_flag]. rewrite Hf. cbn [List.length Nat.ltb Nat.leb].
        rewrite set_lt by (rewrite map_length; apply nth_error_Some; congruence). cbn [bind].
        rewrite <- (IH (done ++ [UOpt (c :: n) v])). f_equal.
        unfold with_objs, state_of; cbn [cl_map cl_args cl_empty cl_ignore].
        rewrite app_nonempty, positional_app. cbn [positional]. rewrite app_nil_r. f_equal.
        destruct (@flat_vals_opt r (c :: n) v done Hin) as (V1 & V2 & V3 & V4).
        apply (@obj_step done (UOpt (c :: n) v) (c :: n) k r); auto.
        * intros r'. simpl. now rewrite andb_false_r.
        * intros r'. rewrite V1. reflexivity.
        * unfold obj_of. rewrite V3, existsb_app. unfold StoreTarget; simpl. rewrite !orb_false_r, Hf.
          f_equal. destruct (flat_map (vals r) done); reflexivity.
      + (* option=value *)
        destruct (isreg_index Hr) as (k & r & Hk & Hin & Hf & Hl).
        destruct Hn as (Nn & Nd & Ne).
        cbn [app parse_args]. destruct (dashes_first (n ++ equals :: v) Hd) as (q & Eq). change (ascii_of_nat 61) with equals.
        rewrite Eq, ch_eqb_refl, <- Eq.
        rewrite (@strip_dashes d (n ++ equals :: v) Hd).
        2:{ destruct n; discriminate. }
        2:{ intros c' r' E. destruct n as [|c n]; [congruence|]. inversion E; subst. now apply (Nd c' n). }
        cbn [bind].
        destruct (List.length (n ++ equals :: v) <? 1) eqn:L1.
        { apply Nat.ltb_lt in L1. rewrite app_length in L1. simpl in L1. lia. }
        rewrite SplitString_two by auto. cbn [bind]. unfold get at 1. cbn [nth_error bind].
        cbn [state_of cl_map cl_objs]. rewrite Hl.
        unfold get at 1. rewrite nth_error_map, Hk. cbn [option_map bind].
        cbn [obj_of ob_flag]. rewrite Hf. cbn [List.length Nat.ltb Nat.leb].
        unfold get at 1. cbn [nth_error bind].
        rewrite set_lt by (rewrite map_length; apply nth_error_Some; congruence). cbn [bind].
        rewrite <- (IH (done ++ [UOptEq n v])). f_equal.
        unfold with_objs, state_of; cbn [cl_map cl_args cl_empty cl_ignore].
        rewrite app_nonempty, positional_app. cbn [positional]. rewrite app_nil_r. f_equal.
        destruct (@flat_vals_opt r n v done Hin) as (V1 & V2 & V3 & V4).
        apply (@obj_step done (UOptEq n v) n k r); auto.
        * intros r'. simpl. now rewrite andb_false_r.
        * intros r'. rewrite V2. reflexivity.
        * unfold obj_of. rewrite V4, existsb_app. unfold StoreTarget; simpl. rewrite !orb_false_r, Hf.
          f_equal. destruct (flat_map (vals r) done); reflexivity.
      + (* positional *)
        assert (Es : map (obj_of (done ++ [UArg w])) regs = map (obj_of done) regs).
        { apply map_ext. intros r. unfold obj_of. rewrite existsb_app, flat_map_app. simpl.
          now rewrite orb_false_r, app_nil_r. }
        assert (Est : mkClp (cl_objs (state_of ig done)) (cl_map (state_of ig done)) (cl_args (state_of ig done) ++ [w]) false (cl_ignore (state_of ig done))
                 = state_of ig (done ++ [UArg w])).
        { unfold state_of; cbn. rewrite Es, app_nonempty, positional_app. reflexivity. }
        cbn [app parse_args]. rewrite Est, IH. destruct w as [|c w]; auto.
        rewrite ch_eqb_false by (apply (Hw c w eq_refl)). reflexivity.
      + (* unknown *)
        destruct Hig as [Hig|Hig]; [|exfalso; inversion Hig; subst; eapply H1; reflexivity].
        destruct Hn as (Nn & Nd & Ne).
        assert (Es : map (obj_of (done ++ [UUnknown (d ++ n)])) regs = map (obj_of done) regs).
        { apply map_ext. intros r. unfold obj_of. rewrite existsb_app, flat_map_app. simpl.
          now rewrite orb_false_r, app_nil_r. }
        cbn [app parse_args]. destruct (dashes_first n Hd) as (q & Eq). rewrite Eq, ch_eqb_refl, <- Eq.
        rewrite (strip_dashes Hd Nn Nd). cbn [bind].
        destruct n as [|c n]; [congruence|]. cbn [List.length Nat.ltb Nat.leb].
        rewrite SplitString_one by exact Ne. cbn [bind]. unfold get at 1. cbn [nth_error bind].
        cbn [state_of cl_map cl_objs cl_ignore].
        assert (El : lookup (cl_map (register regs newParser)) (c :: n) = None).
        { destruct (register_lookup ND newParser (c :: n)) as [_ B]. rewrite B; auto.
          intros r Hr Hin. destruct (rg_flag r) eqn:Hf; [apply Hr1|apply Hr2]; exists r; auto. }
        rewrite El, Hig. rewrite <- Hig.
        rewrite <- (IH (done ++ [UUnknown (d ++ c :: n)])). f_equal.
        unfold state_of; cbn. rewrite Es, app_nonempty, positional_app. cbn. now rewrite app_nil_r.
  Qed.

  Lemma register_state : register regs newParser = state_of true [].
  Proof.
    destruct (register_fields regs newParser) as (E1 & E2 & E3 & E4).
    unfold state_of, obj_of. cbn [flat_map existsb positional]. change (fun r : reg => mkOpt (rg_flag r) (rg_queue r) false false []) with new_obj.
    destruct (register regs newParser). simpl in *. subst. reflexivity.
  Qed.

  Lemma ValuesFor_flat r its vs : ValuesFor r its vs <-> flat_map (vals r) its = vs.
  Proof.
    assert (Hdec : forall it, (exists v, value_for r it v /\ vals r it = [v]) \/ ((forall v, ~ value_for r it v) /\ vals r it = [])).
    { intros it. destruct it as [n|n v|n v|w|w]; simpl;
        try (right; split; auto; intros v' (m & _ & [E|E]); discriminate).
      - destruct (existsb (str_eqb n) (rg_names r)) eqn:E.
        + left. exists v. split; auto. apply existsb_str in E. exists n. auto.
        + right. split; auto. intros v' (m & Hm & [Ev|Ev]); inversion Ev; subst.
          apply existsb_str in Hm. congruence.
      - destruct (existsb (str_eqb n) (rg_names r)) eqn:E.
        + left. exists v. split; auto. apply existsb_str in E. exists n. auto.
        + right. split; auto. intros v' (m & Hm & [Ev|Ev]); inversion Ev; subst.
          apply existsb_str in Hm. congruence. }
    split.
    - induction 1 as [|it v its vs Hv HF IH|it its vs Hn HF IH]; simpl; auto.
      + destruct (Hdec it) as [(v' & Hv' & ->)|[Hno _]]; [|exfalso; eapply Hno; eauto].
        rewrite IH. simpl. f_equal.
        destruct Hv as (a & _ & [->| ->]); destruct Hv' as (b & _ & [E|E]); inversion E; auto.
      + destruct (Hdec it) as [(v' & Hv' & _)|[_ ->]]; [exfalso; eapply Hn; eauto|]. exact IH.
    - intros <-. induction its as [|it its IH]; simpl; [constructor|].
      destruct (Hdec it) as [(v & Hv & ->)|[Hno ->]].
      + simpl. apply VF_yes; auto.
      + simpl. apply VF_no; auto.
  Qed.

  Lemma flag_given_existsb r its : existsb (fg r) its = true <-> flag_given r its.
  Proof.
    rewrite existsb_exists. split.
    - intros (it & Hin & Hf). destruct it; try discriminate. simpl in Hf. apply existsb_str in Hf.
      exists name. auto.
    - intros (n & Hn & Hin). exists (UFlag n). split; auto. simpl. now apply existsb_str.
  Qed.

  Lemma commandline_ok ig its ws prog : Line regs its ws ->
    (ig = true \/ Forall (fun it => forall w, it <> UUnknown w) its) ->
    let p0 := register regs newParser in
    let p1 := if ig then p0 else UnrecognizedAreErrors p0 in
    exists p, ParseCommandLine (prog :: ws) p1 = Ok (0%Z, p) /\
      cl_args p = positional its /\
      cl_empty p = (match its with [] => true | _ => false end) /\
      (forall r n, In r regs -> In n (rg_names r) ->
        (exists b, FlagSet p n = Ok b /\ (b = true <-> flag_given r its)) /\
        (exists vs, ValuesFor r its vs /\ GetNTargets p n = Ok (List.length vs) /\
           OptionSet p n = Ok (match vs with [] => false | _ => true end) /\
           forall i v, nth_error vs i = Some v -> GetTargetString p n i = Ok v)).
  Proof.
    intros HL Hig p0 p1.
    assert (Ep : p1 = state_of ig []).
    { unfold p1, p0. rewrite register_state. destruct ig; reflexivity. }
    exists (state_of ig its). unfold ParseCommandLine. cbn [tl].
    split; [rewrite Ep; rewrite <- (app_nil_r ws); exact (parse_line HL Hig [] [])|]. split; [reflexivity|]. split; [reflexivity|].
    intros r n Hr Hn. apply In_nth_error in Hr. destruct Hr as (k & Hk).
    assert (Hl : lookup (cl_map (register regs newParser)) n = Some k).
    { destruct (register_lookup ND newParser n) as [A _]. rewrite (A k r Hk Hn). reflexivity. }
    assert (Hg : get (cl_objs (state_of ig its)) k = Ok (obj_of its r)).
    { unfold get. cbn [state_of cl_objs]. now rewrite nth_error_map, Hk. }
    split.
    - exists (existsb (fg r) its). unfold FlagSet. cbn [state_of cl_map]. rewrite Hl, Hg. cbn [bind obj_of ob_flagSet].
      split; auto. apply flag_given_existsb.
    - exists (flat_map (vals r) its). split; [now apply ValuesFor_flat|].
      unfold GetNTargets, OptionSet, GetTargetString. cbn [state_of cl_map]. rewrite Hl, Hg.
      cbn [bind obj_of ob_targets ob_targetSet]. repeat split; auto.
      intros i v Hi. unfold get. now rewrite Hi.
  Qed.

  Lemma commandline_missing ig its ws prog n d : Line regs its ws -> (ig = true \/ Forall (fun it => forall w, it <> UUnknown w) its) ->
    dashes d -> Name n -> IsReg false regs n ->
    exists p, ParseCommandLine (prog :: ws ++ [d ++ n]) (if ig then register regs newParser else UnrecognizedAreErrors (register regs newParser)) = Ok ((-1)%Z, p).
  Proof.
    intros HL HI Hd (Nn & Nd & Ne) Hr. rewrite register_state.
    replace (if ig then state_of true [] else UnrecognizedAreErrors (state_of true [])) with (state_of ig []) by (destruct ig; reflexivity).
    unfold ParseCommandLine. cbn [tl].
    rewrite (@parse_line ig its ws HL HI). cbn [app].
    destruct (isreg_index Hr) as (k & r & Hk & Hin & Hf & Hl).
    cbn [parse_args]. destruct (dashes_first n Hd) as (q & Eq). rewrite Eq, ch_eqb_refl, <- Eq.
    rewrite (strip_dashes Hd Nn Nd). cbn [bind].
    destruct n as [|c n]; [congruence|]. cbn [List.length Nat.ltb Nat.leb].
    rewrite SplitString_one by exact Ne. cbn [bind]. unfold get at 1. cbn [nth_error bind].
    cbn [state_of cl_map cl_objs]. rewrite Hl.
    unfold get at 1. rewrite nth_error_map, Hk. cbn [option_map bind].
    cbn [obj_of ob_flag]. rewrite Hf. cbn [List.length Nat.ltb Nat.leb]. eauto.
  Qed.

  Lemma commandline_dashes ig its ws prog d more : Line regs its ws -> (ig = true \/ Forall (fun it => forall w, it <> UUnknown w) its) -> dashes d ->
    exists p, ParseCommandLine (prog :: ws ++ d :: more) (if ig then register regs newParser else UnrecognizedAreErrors (register regs newParser)) = Ok ((-1)%Z, p).
  Proof.
    intros HL HI Hd. rewrite register_state.
    replace (if ig then state_of true [] else UnrecognizedAreErrors (state_of true [])) with (state_of ig []) by (destruct ig; reflexivity).
    unfold ParseCommandLine. cbn [tl].
    rewrite (@parse_line ig its ws HL HI). cbn [app parse_args].
    destruct (dashes_first [] Hd) as (q & Eq). rewrite app_nil_r in Eq.
    assert (Es : StripLeadingDashes d = Ok []).
    { destruct Hd as [Hn Fd]. unfold StripLeadingDashes. destruct d; [congruence|].
      unfold find_first_not_of.
      assert (E : find_p (fun c => negb (is_in [dash] c)) (a :: d) (Some 0) = None); [|now rewrite E].
      apply (@find_p_none (fun c => negb (is_in [dash] c)) (a :: d) []).
      eapply Forall_impl; [|exact Fd]. simpl. intros a0 ->. reflexivity. }
    rewrite Eq, ch_eqb_refl, <- Eq, Es. cbn. eauto.
  Qed.

  Lemma commandline_unknown its ws prog n d more : Line regs its ws ->
    Forall (fun it => forall w, it <> UUnknown w) its ->
    dashes d -> Name n -> ~ IsReg true regs n -> ~ IsReg false regs n ->
    exists p, ParseCommandLine (prog :: ws ++ (d ++ n) :: more) (UnrecognizedAreErrors (register regs newParser)) = Ok ((-1)%Z, p).
  Proof.
    intros HL HF Hd (Nn & Nd & Ne) Hr1 Hr2. rewrite register_state.
    change (UnrecognizedAreErrors (state_of true [])) with (state_of false []).
    unfold ParseCommandLine. cbn [tl].
    rewrite (@parse_line false its ws HL (or_intror HF)). cbn [app].
    cbn [parse_args]. destruct (dashes_first n Hd) as (q & Eq). rewrite Eq, ch_eqb_refl, <- Eq.
    rewrite (strip_dashes Hd Nn Nd). cbn [bind].
    destruct n as [|c n]; [congruence|]. cbn [List.length Nat.ltb Nat.leb].
    rewrite SplitString_one by exact Ne. cbn [bind]. unfold get at 1. cbn [nth_error bind].
    cbn [state_of cl_map cl_objs cl_ignore].
    assert (El : lookup (cl_map (register regs newParser)) (c :: n) = None).
    { destruct (register_lookup ND newParser (c :: n)) as [_ B]. rewrite B; auto.
      intros r Hr Hin. destruct (rg_flag r) eqn:Hf; [apply Hr1|apply Hr2]; exists r; auto. }
    rewrite El. eauto.
  Qed.
End Parse.
