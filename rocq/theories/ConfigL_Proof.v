From Coq Require Import Ascii String List ZArith Lia Bool Sorted.
From Verif Require Import Config_Model StrUtil_Spec StrUtil_Proof Config_Spec Config_Proof ConfigL_Spec.
Local Open Scope list_scope.
Set Implicit Arguments.
Unset Strict Implicit.

(** ---- trimming a line with at least one word ---- *)
Lemma Tokens_head D s w ws : Tokens D s (w :: ws) ->
  exists g q, s = g ++ w ++ q /\ only D g /\ w <> [] /\ only (fun c => ~ D c) w.
Proof.
  intros H. inversion H; subst.
  - exists g, []. rewrite app_nil_r. auto.
  - exists g, (c :: r). auto.
Qed.

Lemma trim_word l w ws : Words l (w :: ws) -> 2 <= List.length w \/ 1 <= List.length ws ->
  exists a t h, l = a ++ t ++ h /\ TrimWhitespace l = Ok t /\ Words t (w :: ws) /\ Forall Blank a /\ Forall Blank h /\
              exists c r, t = c :: r /\ c <> hash.
Proof.
  intros (b & (rest & -> & Fb & Hr) & HT) L.
  destruct (TrimWhitespace_ok (b ++ rest)) as (t & (g & h & E & Hg & Hh & K) & ET).
  apply only_blank in Hg, Hh.
  destruct (Tokens_head HT) as (g0 & q & Eb & Hg0 & Hwne & Hwtok).
  destruct w as [|w0 w]; [congruence|].
  assert (Nw0 : ~ Blank w0) by (inversion Hwtok; auto).
  destruct K as [->|[(t0 & t' & Et & Nt0) (t'' & t1 & Et2 & Nt1)]].
  { exfalso. simpl in E. assert (FB : Forall Blank (g ++ h)) by (apply Forall_app; auto).
    rewrite <- E in FB. apply Forall_app in FB. destruct FB as [FB _]. rewrite Eb in FB. apply Forall_app in FB.
    destruct FB as [_ FB]. inversion FB; auto. }
  assert (Eg : g0 = g /\ w0 :: w ++ q ++ rest = t0 :: t' ++ h).
  { apply (@run_unique Blank); auto.
    - rewrite Et, Eb in E. repeat (rewrite <- app_assoc in E; simpl in E). exact E.
    - intros B. apply Nt0. apply blank_Blank. exact B. }
  destruct Eg as [-> Eg].
  set (b1 := (w0 :: w) ++ q) in *.
  assert (Eg2 : t ++ h = b1 ++ rest).
  { rewrite Et. simpl. rewrite <- Eg. unfold b1. simpl. now rewrite <- app_assoc. }
  assert (Tb1 : Tokens Blank b1 ((w0 :: w) :: ws)).
  { apply (@Tokens_strip g [] b1); auto. rewrite app_nil_r. rewrite <- Eb. exact HT. }
  assert (Fb1 : Forall (fun c => c <> ascii_of_nat 35) b1).
  { rewrite Eb in Fb. apply Forall_app in Fb. apply (proj2 Fb). }
  assert (WT : Words t ((w0 :: w) :: ws)).
  { destruct Hr as [->|(r & ->)].
    - rewrite app_nil_r in Eg2. exists t. split.
      + exists []. rewrite app_nil_r. split; auto. split; auto.
        rewrite <- Eg2 in Fb1. apply Forall_app in Fb1. tauto.
      + apply (@Tokens_strip [] h t); auto. simpl. now rewrite Eg2.
    - exists b1. split; [|auto].
      destruct (@app_eq_app _ _ _ _ _ Eg2) as (q' & [[Eq1 Eq2]|[Eq1 Eq2]]).
      + exists q'. split; auto. split; auto.
        destruct q' as [|q0 q']; [left; auto|]. right. inversion Eq2; subst. eauto.
      + exfalso. rewrite Eq2 in Hh. apply Forall_app in Hh. destruct Hh as [_ Hh].
        inversion Hh; subst. now apply hash_not_blank. }
  exists g, t, h. split; [rewrite E; reflexivity|]. split; [|split; [auto|split; [auto|split; [auto|]]]].
  - rewrite ET. destruct t as [|x [|y t]]; auto.
    exfalso. destruct WT as (b2 & (rest2 & E2 & _) & T2).
    destruct ws as [|u ws].
    + destruct (Tokens_head T2) as (g3 & q3 & E3 & _).
      rewrite E3 in E2. apply (f_equal (@List.length _)) in E2. rewrite !app_length in E2. simpl in E2, L. lia.
    + destruct (Tokens_two_later T2) as (g3 & t3 & c3 & r3 & E3 & _ & N3 & _).
      rewrite E3 in E2. apply (f_equal (@List.length _)) in E2. rewrite !app_length in E2. simpl in E2.
      destruct t3; [congruence|]. simpl in E2. lia.
  - exists t0, t'. split; auto. inversion Eg; subst. inversion Fb1; auto.
Qed.

(** ---- labels ---- *)
Lemma label_chars : Forall (fun c => ~ Blank c) label_kw.
Proof.
  unfold label_kw, Blank. simpl.
  repeat constructor; intros [H|[H|[H|[]]]]; discriminate H.
Qed.

Lemma app_split_ge {A} (a b c d : list A) : a ++ b = c ++ d -> List.length c <= List.length a ->
  exists x, a = c ++ x /\ d = x ++ b.
Proof.
  intros E L. destruct (@app_eq_app _ _ _ _ _ E) as (x & [[E1 E2]|[E1 E2]]).
  - exists x. auto.
  - rewrite E1, app_length in L. destruct x; [|simpl in L; lia].
    exists []. rewrite app_nil_r in *. split; auto.
Qed.

Lemma kw_lead g s a p b (D : ascii -> Prop) : Forall D g -> Forall (fun c => ~ D c) p -> p <> [] ->
  g ++ s = a ++ p ++ b -> exists a', a = g ++ a' /\ s = a' ++ p ++ b.
Proof.
  revert a; induction g as [|x g IH]; intros a Hg Hp Hne E.
  - exists a. auto.
  - inversion Hg; subst. destruct a as [|y a].
    + exfalso. destruct p as [|z p]; [congruence|]. simpl in E. inversion E; subst. inversion Hp; auto.
    + simpl in E. inversion E; subst. destruct (IH a) as (a' & -> & ->); auto. exists a'. auto.
Qed.
Lemma kw_trail h s a p b (D : ascii -> Prop) : Forall D h -> Forall (fun c => ~ D c) p -> p <> [] ->
  s ++ h = a ++ p ++ b -> exists b', b = b' ++ h /\ s = a ++ p ++ b'.
Proof.
  intros Hh Hp Hne E.
  assert (E' : rev h ++ rev s = rev b ++ rev p ++ rev a).
  { rewrite <- !rev_app_distr. rewrite E. now rewrite app_assoc. }
  destruct (@kw_lead (rev h) (rev s) (rev b) (rev p) (rev a) D) as (x & E1 & E2); auto.
  - now apply Forall_rev.
  - now apply Forall_rev.
  - intros H. apply Hne. rewrite <- (rev_involutive p), H. reflexivity.
  - exists (rev x). split.
    + rewrite <- (rev_involutive b), E1, rev_app_distr, rev_involutive. reflexivity.
    + rewrite <- (rev_involutive s), E2, !rev_app_distr, !rev_involutive. now rewrite app_assoc.
Qed.

Lemma Trimmed_tail b h lab : Forall Blank h -> Trimmed Blank (b ++ h) lab -> Trimmed Blank b lab.
Proof.
  intros Hh H. destruct (TrimWhitespace_ok b) as (t & (g & k & E & Hg & Hk & K) & _).
  apply only_blank in Hg, Hk.
  assert (Tt : Trimmed Blank b t).
  { exists g, k. split; auto. split; auto. split; auto. destruct K as [K|[(c & r & K1 & K2) (r' & c' & K3 & K4)]]; [left; auto|right].
    split; [exists c, r|exists r', c']; split; auto; rewrite <- blank_Blank; auto. }
  assert (Tt2 : Trimmed Blank (b ++ h) t).
  { destruct Tt as (g' & k' & E' & Hg' & Hk' & K'). exists g', (k' ++ h). split.
    - rewrite E'. now rewrite <- !app_assoc.
    - split; auto. split; auto. apply Forall_app; auto. }
  rewrite (Trimmed_unique H Tt2). exact Tt.
Qed.

Lemma LabelOf_trim a t h lab : Forall Blank a -> Forall Blank h ->
  LabelOf (a ++ t ++ h) lab -> LabelOf t lab.
Proof.
  intros Ha Hh [[-> HN]|(x & y & E & HM & HT & HL)].
  - left. split; auto. eapply not_Kw_infix; eauto.
  - right. destruct (@kw_lead a (t ++ h) x label_kw y Blank) as (x' & -> & E1); auto.
    { exact label_chars. } { discriminate. }
    destruct (@kw_trail h t x' label_kw y Blank) as (y' & -> & E2); auto.
    { exact label_chars. } { discriminate. }
    exists x', y'. split; auto. split; [|split; auto].
    + intros a' b' E3. assert (H := HM (a ++ a') (b' ++ h)). rewrite !app_length in H.
      assert (List.length a + List.length x' <= List.length a + List.length a'); [|lia].
      apply H. rewrite E3. now rewrite <- !app_assoc.
    + eapply Trimmed_tail; eauto.
Qed.

Lemma find_str_first s p a b : s = a ++ p ++ b ->
  (forall a' b', s = a' ++ p ++ b' -> List.length a <= List.length a') -> find_str s p = Some (List.length a).
Proof.
  revert a; induction s as [|c s IH]; intros a E HM.
  - symmetry in E. apply app_eq_nil in E. destruct E as [-> E]. apply app_eq_nil in E. destruct E as [-> _].
    reflexivity.
  - cbn [find_str]. destruct (is_prefix p (c :: s)) eqn:P.
    + apply is_prefix_true in P. destruct P as (b0 & P). assert (H := HM [] b0 P). simpl in H.
      destruct a; [reflexivity|simpl in H; lia].
    + destruct a as [|x a].
      { exfalso. simpl in E. assert (is_prefix p (c :: s) = true) by (apply is_prefix_true; eauto). congruence. }
      simpl in E. inversion E; subst x. rewrite <- H1. rewrite (IH a); auto.
      intros a' b' E'. assert (H := HM (c :: a') b'). simpl in H. rewrite E' in H. specialize (H eq_refl). lia.
Qed.

Lemma label_ok l lab : LabelOf l lab -> GetFunctionLabel l = Ok lab.
Proof.
  intros [[-> HN]|(a & b & E & HM & HT & HL)]; unfold GetFunctionLabel.
  - destruct (find_str l (lit "LABEL")) eqn:F; auto. exfalso. apply HN. apply find_str_Some in F. exact (proj2 F).
  - change (lit "LABEL") with label_kw. rewrite (find_str_first E HM).
    unfold substr.
    assert (EL : List.length l = List.length a + (5 + List.length b)).
    { rewrite E, !app_length. reflexivity. }
    destruct (List.length l <? List.length a + 5) eqn:El; [apply Nat.ltb_lt in El; lia|].
    assert (ES : skipn (List.length a + 5) l = b).
    { rewrite E, app_assoc. replace (List.length a + 5) with (List.length (a ++ label_kw)) by (rewrite app_length; reflexivity).
      apply skipn_app_len. }
    rewrite ES. cbn [bind].
    destruct (TrimWhitespace_ok b) as (t & Ht & ET). rewrite ET.
    assert (t = lab).
    { apply (@Trimmed_unique Blank b); auto.
      destruct Ht as (g & k & E1 & Hg & Hk & K). apply only_blank in Hg, Hk.
      exists g, k. split; auto. split; auto. split; auto.
      destruct K as [K|[(c & r & K1 & K2) (r' & c' & K3 & K4)]]; [left; auto|right].
      split; [exists c, r|exists r', c']; split; auto; rewrite <- blank_Blank; auto. }
    subst t. destruct (List.length lab =? 1) eqn:El1; auto. apply Nat.eqb_eq in El1. lia.
Qed.

(** ---- trimming keeps what a line says ---- *)
Lemma saysL_trim d l : SaysL d l -> exists t, TrimWhitespace l = Ok t /\ SaysL d t /\
  exists c r, t = c :: r /\ c <> hash.
Proof.
  destruct d as [d|name lab| |k v|]; cbn [SaysL].
  - intros H. exact (says_trim H).
  - intros (HW & HX & HL). destruct (trim_word HW) as (a & t & h & E & ET & WT & Ha & Hh & Hc); [right; simpl; lia|].
    subst l. exists t. split; [exact ET|]. split; [|exact Hc]. split; [exact WT|].
    split; [exact (not_Kw_infix HX)|]. exact (LabelOf_trim Ha Hh HL).
  - intros (HW & HX & HF). destruct (trim_word HW) as (a & t & h & E & ET & WT & Ha & Hh & Hc); [left; simpl; lia|].
    subst l. exists t. split; [exact ET|]. split; [|exact Hc]. split; [exact WT|].
    split; [exact (not_Kw_infix HX)|exact (not_Kw_infix HF)].
  - intros (HW & (H1 & H2 & H3) & HX). destruct (trim_word HW) as (a & t & h & E & ET & WT & Ha & Hh & Hc); [right; simpl; lia|].
    subst l. exists t. split; [exact ET|]. split; [|exact Hc]. split; [exact WT|].
    split; [|exact (not_Kw_infix HX)]. split; [exact (not_Kw_infix H1)|]. split; [exact (not_Kw_infix H2)|exact (not_Kw_infix H3)].
  - intros (HW & HX & HF & HS). destruct (trim_word HW) as (a & t & h & E & ET & WT & Ha & Hh & Hc); [left; simpl; lia|].
    subst l. exists t. split; [exact ET|]. split; [|exact Hc]. split; [exact WT|].
    split; [exact (not_Kw_infix HX)|]. split; [exact (not_Kw_infix HF)|exact (not_Kw_infix HS)].
Qed.

Lemma keep_saysL ds file : FileSaysL ds file -> forall k, exists ls nums,
  keep_lines k file = Ok (ls, nums) /\ Forall2 SaysL ds ls.
Proof.
  induction 1 as [|l ds ls HI HF IH|d l ds ls HS HF IH]; intros k; cbn [keep_lines].
  - eexists _, _. split; [reflexivity|constructor].
  - destruct (trim_ignorable HI) as (t & -> & Ht). cbn [bind].
    destruct (IH (k + 1)%Z) as (ls' & nums & -> & F). cbn [bind].
    destruct Ht as [->|(r & ->)]; [|rewrite ch_eqb_refl]; exists ls', nums; auto.
  - destruct (saysL_trim HS) as (t & -> & HS' & c & r & -> & Hc). cbn [bind].
    destruct (IH (k + 1)%Z) as (ls' & nums & -> & F). cbn [bind].
    rewrite ch_eqb_false by auto. cbn [fst snd].
    eexists _, _. split; [reflexivity|]. constructor; auto.
Qed.

(** ---- vetting and parsing ---- *)
Section RTL.
  Variable T : Type.
  Variable N : Num T.
  Variable strtod : str -> T.
  Variable IsNumeric : str -> bool.
  Notation AddP := (AddParameterAndLimit N strtod).
  Notation ValidL := (ValidParameterLine IsNumeric).
  Notation GoodPar := (GoodPar N strtod IsNumeric).
  Notation GoodLine := (GoodLine N strtod IsNumeric).
  Notation entry := (entry N strtod).

  Definition GoodL (d : lineL) : Prop := match d with LPlain d => GoodLine d | _ => True end.
  (** is the line inside an optional section: state before and after *)
  Definition stepO (o : bool) (d : lineL) : bool :=
    match d with LStart => true | LEnd => false | _ => o end.
  Fixpoint runO (o : bool) (ds : list lineL) : bool :=
    match ds with [] => o | d :: t => runO (stepO o d) t end.
  (** parameter lines outside, option lines inside *)
  Fixpoint Placed (o : bool) (ds : list lineL) : Prop :=
    match ds with
    | [] => True
    | d :: t => match d with LPlain _ => o = false | LOpt _ _ => o = true | _ => True end /\ Placed (stepO o d) t
    end.

  Lemma opt_line_ok l k v : Words l [k; v] ->
    exists b, ChopComment l hash = Ok b /\ ValidL l true = Ok (true, b) /\ Words b [k; v] /\
              forall m, AddOptionalParameter l m = Ok (map_set m k v).
  Proof.
    intros (b & HB & HT). apply Body_chop in HB. exists b. split; auto.
    assert (HS : SplitString b ws_delims = Ok [k; v]) by (apply split_words; auto; simpl; lia).
    split; [|split].
    - unfold ValidParameterLine. rewrite HB. cbn [bind]. rewrite HS. reflexivity.
    - exists b. split; auto. apply Body_chop. exact (chop_idem HB).
    - intros m. unfold AddOptionalParameter. rewrite HB. cbn [bind]. rewrite HS. reflexivity.
  Qed.

  Lemma vet_saysL ds ls : Forall2 SaysL ds ls -> Forall GoodL ds ->
    forall o k, Placed o ds -> exists ls', vet_lines IsNumeric o k ls = Ok (inr ls') /\ Forall2 SaysL ds ls'.
  Proof.
    induction 1 as [|d l ds ls HS HF IH]; intros HG o k HP.
    - eexists. split; [reflexivity|constructor].
    - apply Forall_cons_iff in HG. destruct HG as [Gd Gds]. cbn [Placed] in HP. destruct HP as [HPd HPt].
      destruct d as [d|name lab| |kk v|]; cbn [SaysL GoodL stepO] in *.
      + subst o. destruct (IH Gds false (S k) HPt) as (ls' & E & F).
        destruct (@vet_says T N strtod IsNumeric [d] [l] (Forall2_cons _ _ HS (Forall2_nil _)) (Forall_cons _ Gd (Forall_nil _)) k)
          as (l1 & E1 & F1).
        inversion F1 as [|? l' ? ? S1 F1']; subst. inversion F1'; subst.
        exists (l' :: ls'). split; [|constructor; auto].
        cbn [vet_lines] in E1 |- *. rewrite E.
        destruct (has "FUNCTION" l) eqn:EFu; cbn [negb bind] in *; [inversion E1; auto|].
        destruct (has "OPTIONAL_PARAMS_START" l) eqn:ES.
        { exfalso. destruct HS as [HW HK]. apply has_true in ES. apply has_false in EFu.
          destruct d; cbn [Config_Spec.GoodLine] in Gd; unfold PosLine in HK; try tauto.
          apply EFu. eapply Words_first_kw. exact HW. }
        destruct (has "OPTIONAL_PARAMS_END" l) eqn:EE; [inversion E1; auto|].
        destruct (ValidL l false) as [[v b]| | |]; cbn [bind fst snd] in *; try discriminate.
        destruct v; cbn [negb] in *; [|discriminate]. inversion E1; auto.
      + destruct (IH Gds o (S k) HPt) as (ls' & E & F). destruct HS as (HW & HX & HL).
        assert (HFn : has "FUNCTION" l = true) by (apply has_true; eapply Words_first_kw; exact HW).
        cbn [vet_lines]. rewrite HFn. cbn [negb]. rewrite E. cbn [bind]. eexists. split; [reflexivity|].
        constructor; auto. split; auto.
      + destruct (IH Gds true (S k) HPt) as (ls' & E & F). destruct HS as (HW & HX & HF').
        assert (H1 : has "OPTIONAL_PARAMS_START" l = true) by (apply has_true; eapply Words_first_kw; exact HW).
        pose proof HF' as HF2. apply has_false in HF'.
        cbn [vet_lines]. rewrite HF', H1. cbn [negb]. rewrite E. cbn [bind]. eexists. split; [reflexivity|].
        constructor; auto. split; auto.
      + subst o. destruct (IH Gds true (S k) HPt) as (ls' & E & F). destruct HS as (HW & HPl & HX).
        destruct (PosLine_has HPl) as (P1 & P2 & P3). destruct (opt_line_ok HW) as (b & HB & HV & HWb & _).
        cbn [vet_lines]. rewrite P1, P2, P3, HV. cbn [negb bind fst snd]. rewrite E. cbn [bind].
        eexists. split; [reflexivity|]. constructor; auto.
        destruct (chop_prefix HB) as (rest & Er). split; auto. rewrite Er in HPl, HX. split.
        * exact (PosLine_prefix HPl).
        * intros K. apply HX. now apply Kw_app_l.
      + destruct (IH Gds false (S k) HPt) as (ls' & E & F). destruct HS as (HW & HX & HF' & HS').
        assert (H1 : has "OPTIONAL_PARAMS_END" l = true) by (apply has_true; eapply Words_first_kw; exact HW).
        pose proof HF' as HF2. pose proof HS' as HS2. apply has_false in HF', HS'.
        cbn [vet_lines]. rewrite HF', HS', H1. cbn [negb]. rewrite E. cbn [bind]. eexists. split; [reflexivity|].
        constructor; auto. split; auto.
  Qed.

  Variable chk : bool.
  Notation parse := (parse_lines N strtod).

  Definition set_opts (m : smap) (kvs : list (str * str)) : smap :=
    fold_left (fun m kv => map_set m (fst kv) (snd kv)) kvs m.

  Definition with_opt (st : pout T) (o : list smap) : pout T :=
    mkOut (o_names st) (o_labels st) (o_params st) (o_limits st) (o_starts st) (o_limFound st) o.

  Lemma parse_opts kvs : forall ls rest fn (st : pout T) o m,
    Forall2 SaysL (map (fun kv => LOpt (fst kv) (snd kv)) kvs) ls ->
    o_opt st = o ++ [m] -> List.length o = fn ->
    parse true chk (ls ++ rest) true (S fn) st =
    parse true chk rest true (S fn) (with_opt st (o ++ [set_opts m kvs])).
  Proof.
    induction kvs as [|[k v] kvs IH]; intros ls rest fn st o m HF Ho Hl; simpl in HF.
    - inversion HF; subst. simpl. destruct st; simpl in *. rewrite Ho. reflexivity.
    - inversion HF as [|? l ? ls0 HS HF0]; subst. cbn [SaysL] in HS. destruct HS as (HW & HP & HX).
      destruct (PosLine_has HP) as (P1 & P2 & P3). apply has_false in HX.
      destruct (opt_line_ok HW) as (b & _ & _ & _ & HA).
      cbn [app parse_lines]. rewrite HX, P1, P2, P3.
      assert (EG : get (o_opt st) (List.length o) = Ok m).
      { unfold get. rewrite Ho, nth_error_app2 by lia. now rewrite Nat.sub_diag. }
      rewrite EG. cbn [bind]. rewrite HA. cbn [bind].
      assert (ES : forall x : smap, set (o ++ [m]) (List.length o) x = Ok (o ++ [x])).
      { intros x. rewrite set_lt by (rewrite app_length; simpl; lia). f_equal.
        clear. induction o; simpl; auto. now rewrite IHo. }
      rewrite Ho, ES. cbn [bind].
      erewrite (IH ls0 rest (List.length o) _ o (map_set m k v) HF0); [|reflexivity|reflexivity].
      reflexivity.
  Qed.

  Lemma parse_parsL ps : forall ls rest fn st,
    Forall2 SaysL (map (fun p => LPlain (DPar p)) ps) ls -> Forall GoodL (map (fun p => LPlain (DPar p)) ps) ->
    parse true chk (ls ++ rest) false fn st =
    parse true chk rest false fn (fold_left (fun s p => addp N strtod s (pa_val p) (pa_lim p)) ps st).
  Proof.
    intros ls rest fn st HF HG. apply (@parse_pars T N strtod IsNumeric).
    - clear -HF. revert ls HF. induction ps as [|p ps IH]; intros ls HF; simpl in HF |- *; inversion HF; subst; constructor; auto.
    - clear -HG. induction ps as [|p ps IH]; simpl in *; [constructor|]. apply Forall_cons_iff in HG. destruct HG. constructor; auto.
  Qed.

  (** what reading adds to the outputs *)
  Definition AddsL (st out : pout T) (fs : list funcL) (pars : list (text * limits_)) (starts : list nat) : Prop :=
    o_names out = o_names st ++ map fl_name fs /\
    o_labels out = o_labels st ++ map fl_label fs /\
    o_params out = o_params st ++ map (fun p => strtod (fst p)) pars /\
    o_limits out = o_limits st ++ map (fun p => entry (snd p)) pars /\
    o_starts out = o_starts st ++ starts /\
    o_limFound out = o_limFound st || existsb (fun p => found (snd p)) pars /\
    o_opt out = o_opt st ++ map (fun f => set_opts [] (opts_of f)) fs.

  Lemma AddsL_nil st : AddsL st st [] [] [].
  Proof. unfold AddsL; simpl. rewrite !app_nil_r, orb_false_r. tauto. Qed.
  Lemma AddsL_trans a b c n1 p1 s1 n2 p2 s2 :
    AddsL a b n1 p1 s1 -> AddsL b c n2 p2 s2 -> AddsL a c (n1 ++ n2) (p1 ++ p2) (s1 ++ s2).
  Proof.
    intros (A1 & A2 & A3 & A4 & A5 & A6 & A7) (B1 & B2 & B3 & B4 & B5 & B6 & B7).
    unfold AddsL. rewrite B1, B2, B3, B4, B5, B6, B7, A1, A2, A3, A4, A5, A6, A7.
    rewrite !map_app, !app_assoc, existsb_app, orb_assoc. repeat split; auto.
  Qed.
  Lemma AddsL_pars ps : forall st,
    AddsL st (fold_left (fun s p => addp N strtod s (pa_val p) (pa_lim p)) ps st) []
         (map (fun p => (pa_val p, pa_lim p)) ps) [].
  Proof.
    induction ps as [|p ps IH]; intros st; simpl; [apply AddsL_nil|].
    change (@nil funcL) with (@nil funcL ++ []). change (@nil nat) with (@nil nat ++ []).
    eapply (@AddsL_trans _ _ _ [] [(pa_val p, pa_lim p)] [] []); [|apply IH].
    unfold AddsL, addp; simpl. rewrite !app_nil_r, orb_false_r. tauto.
  Qed.

  Lemma parse_funL f : forall ls rest fn st,
    Forall2 SaysL (func_linesL f) ls -> Forall GoodL (func_linesL f) -> List.length (o_opt st) = fn ->
    exists st', parse true chk (ls ++ rest) false fn st = parse true chk rest false (S fn) st' /\
      AddsL st st' [f] (map (fun p => (pa_val p, pa_lim p)) (fl_params f)) [].
  Proof.
    intros ls rest fn st HF HG HO. unfold func_linesL in *. inversion HF as [|? l0 ? ls0 HS HF0]; subst.
    apply Forall_cons_iff in HG. destruct HG as [_ HG]. apply Forall_app in HG. destruct HG as [_ HG].
    cbn [SaysL] in HS. destruct HS as (HW & HX & HL).
    apply Forall2_app_l in HF0. destruct HF0 as (lo & lp & -> & Fo & Fp).
    assert (HFn : has "FUNCTION" l0 = true) by (apply has_true; eapply Words_first_kw; exact HW).
    apply has_false in HX. cbn [app parse_lines]. rewrite HX, HFn.
    unfold AddFunctionNameAndLabel. rewrite (label_ok HL). cbn [bind].
    destruct HW as (b & HB & HT). apply Body_chop in HB. rewrite HB. cbn [bind].
    rewrite (split_words HT) by (simpl; lia). cbn [bind]. unfold get at 1. cbn [nth_error bind fst snd].
    set (st1 := mkOut (o_names st ++ [fl_name f]) (o_labels st ++ [fl_label f]) (o_params st) (o_limits st)
                      (o_starts st) (o_limFound st) (o_opt st ++ [[]])).
    set (st2 := with_opt st1 (o_opt st ++ [set_opts [] (opts_of f)])).
    assert (E : parse true chk ((lo ++ lp) ++ rest) false (S (List.length (o_opt st))) st1 =
                parse true chk (lp ++ rest) false (S (List.length (o_opt st))) st2).
    { rewrite <- app_assoc. unfold st2, opts_of. destruct (fl_opts f) as [kvs|]; cbn [opts_lines] in Fo.
      - inversion Fo as [|? ls1 ? lo1 HS1 Fo1]; subst. cbn [SaysL] in HS1. destruct HS1 as (HW1 & HX1 & HF1).
        apply Forall2_app_l in Fo1. destruct Fo1 as (lk & le & -> & Fk & Fe).
        inversion Fe as [|? le1 ? ? HSe Fe1]; subst. inversion Fe1; subst.
        cbn [SaysL] in HSe. destruct HSe as (HWe & HXe & HFe & HSe).
        assert (H1 : has "OPTIONAL_PARAMS_START" ls1 = true) by (apply has_true; eapply Words_first_kw; exact HW1).
        assert (H2 : has "OPTIONAL_PARAMS_END" le1 = true) by (apply has_true; eapply Words_first_kw; exact HWe).
        apply has_false in HX1, HF1, HXe, HFe, HSe.
        cbn [app parse_lines]. rewrite HX1, HF1, H1. rewrite <- app_assoc.
        rewrite (@parse_opts kvs lk _ (List.length (o_opt st)) st1 (o_opt st) [] Fk eq_refl eq_refl).
        cbn [app parse_lines]. rewrite HXe, HFe, HSe, H2. reflexivity.
      - inversion Fo; subst. reflexivity. }
    rewrite E. rewrite (@parse_parsL (fl_params f) lp rest _ st2 Fp HG).
    eexists. split; [reflexivity|].
    change [f] with ([f] ++ []). change (@nil nat) with (@nil nat ++ []).
    match goal with |- AddsL _ _ _ ?p _ => change p with ([] ++ p) end.
    eapply AddsL_trans; [|apply AddsL_pars].
    unfold AddsL, st2, st1, with_opt; simpl. rewrite !app_nil_r, orb_false_r. tauto.
  Qed.

  Lemma AddsL_opt st out fs p s : AddsL st out fs p s ->
    List.length (o_opt out) = List.length (o_opt st) + List.length fs.
  Proof. intros (_ & _ & _ & _ & _ & _ & ->). now rewrite app_length, map_length. Qed.

  Lemma parse_funsL fs : forall ls rest fn st,
    Forall2 SaysL (flat_map func_linesL fs) ls -> Forall GoodL (flat_map func_linesL fs) ->
    List.length (o_opt st) = fn ->
    exists st', parse true chk (ls ++ rest) false fn st = parse true chk rest false (fn + List.length fs) st' /\
      AddsL st st' fs (flat_map (fun f => map (fun p => (pa_val p, pa_lim p)) (fl_params f)) fs) [].
  Proof.
    induction fs as [|f fs IH]; intros ls rest fn st HF HG HO.
    - cbn [flat_map] in HF. inversion HF; subst. exists st. rewrite Nat.add_0_r. split; auto. apply AddsL_nil.
    - cbn [flat_map] in HF, HG. apply Forall2_app_l in HF. destruct HF as (l1 & l2 & -> & H1 & H2).
      apply Forall_app in HG. destruct HG as [G1 G2]. rewrite <- app_assoc.
      destruct (@parse_funL f l1 (l2 ++ rest) fn st H1 G1 HO) as (st1 & E & A1).
      assert (HO1 := AddsL_opt A1). simpl in HO1.
      destruct (IH l2 rest (S fn) st1 H2 G2) as (st' & E2 & A2); [lia|].
      exists st'. split.
      + rewrite E, E2. f_equal. simpl. lia.
      + cbn [flat_map]. change (f :: fs) with ([f] ++ fs). change (@nil nat) with (@nil nat ++ []).
        eapply AddsL_trans; eauto.
  Qed.

  Lemma parse_blocksL bs : forall ls fn st,
    Forall2 SaysL (flat_map block_linesL bs) ls -> Forall GoodL (flat_map block_linesL bs) ->
    List.length (o_opt st) = fn ->
    exists st', parse true chk ls false fn st = Ok (0%Z, st') /\
      AddsL st st' (all_funcsL bs) (all_paramsL bs) (starts_fromL fn bs).
  Proof.
    induction bs as [|b bs IH]; intros ls fn st HF HG HO.
    - cbn [flat_map] in HF. inversion HF; subst. exists st. split; auto. apply AddsL_nil.
    - cbn [flat_map] in HF, HG. apply Forall2_app_l in HF. destruct HF as (l1 & l2 & -> & H1 & H2).
      apply Forall_app in HG. destruct HG as [G1 G2]. unfold block_linesL in H1, G1.
      inversion H1 as [|? lx ? l1' HX H1']; subst. inversion H1' as [|? ly ? l1'' HY H1'']; subst.
      apply Forall_cons_iff in G1. destruct G1 as [Gx G1']. apply Forall_cons_iff in G1'. destruct G1' as [Gy G1''].
      cbn [SaysL GoodL] in *.
      destruct HX as [HWx HPx]. destruct HY as [HWy [HPy HNy]].
      destruct (par_line_ok HWx Gx) as (? & _ & _ & _ & HAx & _).
      destruct (par_line_ok HWy Gy) as (? & _ & _ & _ & HAy & _).
      cbn [app parse_lines]. rewrite (X0_kw HWx), HAx. cbn [bind]. rewrite add_par_good.
      assert (HYk : has "Y0" ly = true) by (apply has_true; eapply Words_first_kw; exact HWy).
      rewrite HYk. cbn [negb]. rewrite HAy. cbn [bind]. rewrite add_par_good.
      match goal with |- context [parse true chk (l1'' ++ l2) false ?n ?s] => set (st1 := s); set (fn := n) end.
      destruct (@parse_funsL (bk_funcs b) l1'' l2 fn st1 H1'' G1'') as (st2 & E2 & A2); [reflexivity|].
      assert (HO2 := AddsL_opt A2).
      destruct (IH l2 (fn + List.length (bk_funcs b)) st2 H2 G2) as (st3 & E3 & A3); [exact HO2|].
      exists st3. split; [now rewrite E2|].
      unfold all_funcsL, all_paramsL. cbn [flat_map starts_fromL]. fold (all_funcsL bs) (all_paramsL bs).
      change (fn :: starts_fromL (fn + List.length (bk_funcs b)) bs)
        with ([fn] ++ starts_fromL (fn + List.length (bk_funcs b)) bs).
      eapply AddsL_trans; [|exact A3]. unfold block_paramsL.
      apply (@AddsL_trans st st1 st2 [] [bk_x b; bk_y b] [fn] (bk_funcs b)
               (flat_map (fun f => map (fun p => (pa_val p, pa_lim p)) (fl_params f)) (bk_funcs b)) []); [|exact A2].
      unfold AddsL, st1, addp; simpl. rewrite !app_nil_r, orb_false_r, <- !app_assoc.
      simpl. repeat split; auto. destruct (found (snd (bk_x b))), (found (snd (bk_y b))), (o_limFound st); reflexivity.
  Qed.
End RTL.

(** ---- the whole file ---- *)
Lemma Placed_app o a b : Placed o a -> Placed (runO o a) b -> Placed o (a ++ b).
Proof. revert o; induction a as [|d a IH]; intros o; simpl; auto. intros [H1 H2] H3. split; auto. Qed.
Lemma runO_app o a b : runO o (a ++ b) = runO (runO o a) b.
Proof. revert o; induction a as [|d a IH]; intros o; simpl; auto. Qed.

Lemma placed_pars ps : Placed false (map (fun p => LPlain (DPar p)) ps) /\ runO false (map (fun p => LPlain (DPar p)) ps) = false.
Proof. induction ps as [|p ps [IH1 IH2]]; simpl; auto. Qed.
Lemma placed_opts kvs : Placed true (map (fun kv : text * text => LOpt (fst kv) (snd kv)) kvs) /\
  runO true (map (fun kv : text * text => LOpt (fst kv) (snd kv)) kvs) = true.
Proof. induction kvs as [|p ps [IH1 IH2]]; simpl; auto. Qed.
Lemma placed_func f : Placed false (func_linesL f) /\ runO false (func_linesL f) = false.
Proof.
  unfold func_linesL. cbn [Placed runO stepO]. destruct (placed_pars (fl_params f)) as [P1 P2].
  assert (A : Placed false (opts_lines (fl_opts f)) /\ runO false (opts_lines (fl_opts f)) = false).
  { destruct (fl_opts f) as [kvs|]; cbn [opts_lines Placed runO stepO]; auto.
    destruct (placed_opts kvs) as [Q1 Q2]. split; [split; auto|].
    - apply Placed_app; auto. simpl. auto.
    - rewrite runO_app. reflexivity. }
  destruct A as [A1 A2]. split; [split; auto; apply Placed_app; auto; now rewrite A2|].
  now rewrite runO_app, A2.
Qed.
Lemma placed_funcs fs : Placed false (flat_map func_linesL fs) /\ runO false (flat_map func_linesL fs) = false.
Proof.
  induction fs as [|f fs [IH1 IH2]]; cbn [flat_map]; [simpl; auto|]. destruct (placed_func f) as [P1 P2].
  split; [apply Placed_app; auto; now rewrite P2|]. now rewrite runO_app, P2.
Qed.
Lemma placed_blocks bs : Placed false (flat_map block_linesL bs) /\ runO false (flat_map block_linesL bs) = false.
Proof.
  induction bs as [|b bs [IH1 IH2]]; cbn [flat_map]; [simpl; auto|].
  destruct (placed_funcs (bk_funcs b)) as [P1 P2].
  split; [apply Placed_app; auto|].
  - unfold block_linesL. cbn [Placed stepO]. auto.
  - unfold block_linesL. cbn [runO stepO]. now rewrite P2.
  - rewrite runO_app. unfold block_linesL. cbn [runO stepO]. now rewrite P2.
Qed.

Section RT3.
  Variable T : Type.
  Variable N : Num T.
  Variable strtod : str -> T.
  Variable IsNumeric : str -> bool.

  Lemma all_names_LFun bs : all_funcsL bs <> [] -> exists n lab, In (LFun n lab) (flat_map block_linesL bs).
  Proof.
    intros H. destruct (all_funcsL bs) as [|f t] eqn:E; [congruence|].
    assert (Hin : In f (all_funcsL bs)) by (rewrite E; left; reflexivity).
    unfold all_funcsL in Hin. apply in_flat_map in Hin. destruct Hin as (b & Hb & Hn).
    exists (fl_name f), (fl_label f).
    apply in_flat_map. exists b. split; auto. right. right. apply in_flat_map. exists f. split; auto.
    left. reflexivity.
  Qed.
  Lemma no_LFun ds q : Forall2 SaysL ds q -> Forall (fun l => has "FUNCTION" l = false) q ->
    forall n lab, ~ In (LFun n lab) ds.
  Proof.
    intros HF. induction HF as [|d l ds q HS HF IH]; intros HN n lab; [auto|].
    apply Forall_cons_iff in HN. destruct HN as [HN1 HN2]. intros [->|Hin]; [|eapply IH; eauto].
    destruct HS as [HW _]. apply has_false in HN1. apply HN1. eapply Words_first_kw. exact HW.
  Qed.

  (** the common part of both readers *)
  Lemma read_L opts bs file (chk : bool) :
    FileSaysL (config_linesL opts bs) file -> bs <> [] -> all_funcsL bs <> [] ->
    Forall (GoodLine N strtod IsNumeric) (map (fun p => DX0 (fst p) (snd p)) (all_paramsL bs)) ->
    exists kl nums lo lv out,
      keep_lines 0 file = Ok (kl, nums) /\
      VetConfigFile IsNumeric kl nums true = Ok (Z.of_nat (List.length lo), lo ++ lv, None) /\
      read_options lo = Ok opts /\
      ParseFunctionSection N strtod lv true chk [] = Ok (0%Z, out) /\
      AddsL N strtod (mkOut [] [] [] [] [] false []) out (all_funcsL bs) (all_paramsL bs) (starts_fromL 0 bs).
  Proof.
    intros HF Hne Hfn HG0.
    assert (HG : Forall (GoodL N strtod IsNumeric) (flat_map block_linesL bs)).
    { rewrite Forall_forall in HG0 |- *. intros d Hd. apply in_flat_map in Hd. destruct Hd as (b & Hb & Hd).
      assert (A : forall v l, In (v, l) (block_paramsL b) -> GoodPar N strtod IsNumeric v l).
      { intros v l Hin. apply (HG0 (DX0 v l)). apply in_map_iff. exists (v, l). split; auto.
        apply in_flat_map. eauto. }
      destruct Hd as [<-|[<-|Hd]].
      - cbn [GoodL]. apply (A (fst (bk_x b)) (snd (bk_x b))). left. now destruct (bk_x b).
      - cbn [GoodL]. apply (A (fst (bk_y b)) (snd (bk_y b))). right. left. now destruct (bk_y b).
      - apply in_flat_map in Hd. destruct Hd as (f & Hf & [<-|Hd]); [exact I|].
        apply in_app_or in Hd. destruct Hd as [Hd|Hd].
        + destruct (fl_opts f) as [kvs|]; [|destruct Hd]. destruct Hd as [<-|Hd]; [exact I|].
          apply in_app_or in Hd. destruct Hd as [Hd|[<-|[]]]; [|exact I].
          apply in_map_iff in Hd. destruct Hd as (kv & <- & _). exact I.
        + apply in_map_iff in Hd. destruct Hd as (p & <- & Hp). cbn [GoodL]. apply A. right. right.
          apply in_flat_map. exists f. split; auto. apply in_map_iff. exists p. auto. }
    clear HG0.
    destruct (keep_saysL HF 0%Z) as (ls & nums & EK & F2).
    unfold config_linesL in F2. apply Forall2_app_l in F2. destruct F2 as (lo & lb & -> & Fo & Fb).
    destruct bs as [|b bs]; [congruence|]. cbn [flat_map] in Fb.
    pose proof Fb as Fb0. apply Forall2_app_l in Fb. destruct Fb as (l1 & l2 & -> & H1 & H2).
    unfold block_linesL in H1.
    inversion H1 as [|? lx ? l1' HX H1']; subst. inversion H1' as [|? ly ? l1'' HY H1'']; subst.
    cbn [SaysL] in HX, HY.
    assert (EF : find_line (has "X0") (lo ++ (lx :: ly :: l1'') ++ l2) = Some (List.length lo)).
    { cbn [app]. apply find_line_app.
      - clear -Fo. revert lo Fo. induction opts as [|kv opts IH]; intros lo Fo; simpl in Fo; inversion Fo; subst; constructor; auto.
        apply has_false. cbn [SaysL] in H1. apply (proj2 H1).
      - destruct HX as [HW _]. exact (X0_kw HW). }
    destruct (@vet_saysL T N strtod IsNumeric _ _ Fb0 HG false (List.length lo) (proj1 (placed_blocks (b :: bs)))) as (lv & EV & Fv).
    assert (EVet : VetConfigFile IsNumeric (lo ++ (lx :: ly :: l1'') ++ l2) nums true
                   = Ok (Z.of_nat (List.length lo), lo ++ lv, None)).
    { unfold VetConfigFile. rewrite EF.
      assert (En : nth_error (lo ++ (lx :: ly :: l1'') ++ l2) (S (List.length lo)) = Some ly).
      { rewrite nth_error_app2 by lia. replace (S (List.length lo) - List.length lo) with 1 by lia. reflexivity. }
      rewrite En.
      assert (HYk : has "Y0" ly = true) by (apply has_true; destruct HY as [HW _]; eapply Words_first_kw; exact HW).
      rewrite HYk. cbn [andb negb]. rewrite skipn_app_len, firstn_app_len.
      destruct (find_line (has "FUNCTION") ((lx :: ly :: l1'') ++ l2)) as [k|] eqn:EFn.
      - rewrite EV. cbn [bind]. reflexivity.
      - exfalso.
        assert (NF : Forall (fun l => has "FUNCTION" l = false) ((lx :: ly :: l1'') ++ l2)).
        { clear -EFn. remember ((lx :: ly :: l1'') ++ l2) as q. clear Heqq. induction q as [|x q IH]; constructor.
          - cbn [find_line] in EFn. destruct (has "FUNCTION" x); congruence.
          - apply IH. cbn [find_line] in EFn. destruct (has "FUNCTION" x); [congruence|].
            destruct (find_line (has "FUNCTION") q); [discriminate|auto]. }
        destruct (all_names_LFun Hfn) as (n & lab & Hn). exact (no_LFun Fb0 NF Hn). }
    destruct (@parse_blocksL T N strtod IsNumeric chk (b :: bs) lv 0 (mkOut [] [] [] [] [] false []) Fv HG eq_refl)
      as (out & EP & A).
    exists (lo ++ (lx :: ly :: l1'') ++ l2), nums, lo, lv, out.
    split; [exact EK|]. split; [exact EVet|]. split; [|split; [exact EP|exact A]].
    apply read_options_ok. clear -Fo. revert lo Fo.
    induction opts as [|kv opts IH]; intros lo Fo; simpl in Fo |- *; inversion Fo; subst; constructor; auto.
  Qed.

  Definition ReadsTo (bs : list blockL) (out : pout T) : Prop :=
    o_names out = map fl_name (all_funcsL bs) /\
    o_labels out = map fl_label (all_funcsL bs) /\
    o_params out = map (fun p => strtod (fst p)) (all_paramsL bs) /\
    o_limits out = map (fun p => entry N strtod (snd p)) (all_paramsL bs) /\
    o_starts out = starts_fromL 0 bs /\
    o_limFound out = existsb (fun p => found (snd p)) (all_paramsL bs) /\
    o_opt out = map (fun f => set_opts [] (opts_of f)) (all_funcsL bs).

  Lemma round_tripL opts bs file :
    FileSaysL (config_linesL opts bs) file -> bs <> [] -> all_funcsL bs <> [] ->
    Forall (GoodLine N strtod IsNumeric) (map (fun p => DX0 (fst p) (snd p)) (all_paramsL bs)) ->
    (exists out, ReadConfigFile_full N strtod IsNumeric file true [] = Ok (0%Z, Some (out, opts)) /\ ReadsTo bs out) /\
    (forall opt0, exists out, ReadConfigFile_limited N strtod IsNumeric file true opt0 = Ok (0%Z, Some (out, opts)) /\ ReadsTo bs out).
  Proof.
    intros HF Hne Hfn HG. split.
    - destruct (read_L true HF Hne Hfn HG) as (kl & nums & lo & lv & out & E1 & E2 & E3 & E4 & A).
      exists out. split; [|exact A].
      unfold ReadConfigFile_full. rewrite E1. cbn [bind fst snd]. rewrite E2. cbn [bind].
      destruct (Z.of_nat (List.length lo) <? 0)%Z eqn:EZ; [apply Z.ltb_lt in EZ; lia|].
      unfold skip_to. rewrite Nat2Z.id, skipn_app_len, firstn_app_len, E3. cbn [bind]. rewrite E4. reflexivity.
    - intros opt0. destruct (read_L false HF Hne Hfn HG) as (kl & nums & lo & lv & out & E1 & E2 & E3 & E4 & A).
      exists out. split; [|exact A].
      unfold ReadConfigFile_limited. rewrite E1. cbn [bind fst snd]. rewrite E2. cbn [bind].
      destruct (Z.of_nat (List.length lo) <? 0)%Z eqn:EZ; [apply Z.ltb_lt in EZ; lia|].
      unfold skip_to. rewrite Nat2Z.id, skipn_app_len, firstn_app_len, E3. cbn [bind]. rewrite E4. reflexivity.
  Qed.
End RT3.

(** ---- the maps of optional parameters ---- *)
Lemma map_get_set m k v k' : map_get (map_set m k v) k' = if str_eqb k' k then Some v else map_get m k'.
Proof.
  induction m as [|[a b] m IH]; simpl.
  - reflexivity.
  - destruct (str_eqb k a) eqn:E1; simpl.
    + apply str_eqb_true in E1. subst a. destruct (str_eqb k' k); reflexivity.
    + rewrite IH. destruct (str_eqb k' a) eqn:E2; auto.
      destruct (str_eqb k' k) eqn:E3; auto.
      apply str_eqb_true in E2, E3. subst. rewrite str_eqb_refl in E1. discriminate.
Qed.

Lemma last_value_dec kvs k : (exists v, last_value kvs k v) \/ (forall v, ~ last_value kvs k v).
Proof.
  induction kvs as [|[a b] kvs IH]; simpl; [right; auto|].
  destruct IH as [(v & Hv)|HN]; [left; eauto|].
  destruct (str_eqb a k) eqn:E.
  - apply str_eqb_true in E. left. exists b. right. auto.
  - right. intros v [H|(H & _)]; [eapply HN; eauto|]. subst. rewrite str_eqb_refl in E. discriminate.
Qed.

Lemma set_opts_get kvs : forall m k v, map_get (set_opts m kvs) k = Some v <->
  last_value kvs k v \/ (map_get m k = Some v /\ forall w, ~ last_value kvs k w).
Proof.
  induction kvs as [|[a b] kvs IH]; intros m k v; cbn [set_opts fold_left last_value].
  - split; auto. intros [[]|[H _]]; auto.
  - fold (set_opts (map_set m a b) kvs). cbn [fst snd]. change (fold_left _ kvs (map_set m a b)) with (set_opts (map_set m a b) kvs).
    rewrite IH, map_get_set. destruct (str_eqb k a) eqn:E.
    + apply str_eqb_true in E. subst a. split.
      * intros [H|[H1 H2]]; [left; auto|]. inversion H1; subst. left. right. auto.
      * intros [[H|(_ & -> & H)]|[H1 H2]]; [left; auto|right; auto|].
        destruct (last_value_dec kvs k) as [(w & Hw)|HN]; [exfalso; eapply (H2 w); left; eauto|].
        exfalso. apply (H2 b). right. auto.
    + assert (a <> k) by (intros ->; rewrite str_eqb_refl in E; discriminate). split.
      * intros [H1|[H1 H2]]; [left; auto|]. right. split; auto. intros w [Hw|(Hw & _)]; [eapply H2; eauto|tauto].
      * intros [[H1|(H1 & _)]|[H1 H2]]; [left; auto|tauto|]. right. split; auto. intros w Hw. eapply H2. left. eauto.
Qed.

(** ---- first occurrences ---- *)
Lemma first_occ (p a b a' b' : text) : p <> [] -> ~ Contains p (a ++ removelast p) ->
  a ++ p ++ b = a' ++ p ++ b' -> List.length a <= List.length a'.
Proof.
  intros Hp HN E. destruct (Nat.le_gt_cases (List.length a) (List.length a')) as [|Hlt]; auto. exfalso. apply HN.
  assert (Hr : p = removelast p ++ [last p (ascii_of_nat 0)]) by (apply app_removelast_last; exact Hp).
  assert (Hl : S (List.length (removelast p)) = List.length p).
  { rewrite Hr at 2. rewrite app_length. simpl. lia. }
  assert (F := f_equal (firstn (List.length a + List.length (removelast p))) E).
  rewrite firstn_app_2 in F.
  replace (p ++ b) with (removelast p ++ ([last p (ascii_of_nat 0)] ++ b)) in F by (rewrite app_assoc, <- Hr; reflexivity).
  replace (List.length (removelast p)) with (List.length (removelast p) + 0) in F at 1 by lia.
  rewrite firstn_app_2, firstn_O, app_nil_r in F.
  rewrite F. exists a'. 
  replace (List.length a + List.length (removelast p))
    with (List.length a' + (List.length p + (List.length a - List.length a' - 1))) by lia.
  rewrite !firstn_app_2. eexists. reflexivity.
Qed.

Lemma label_first (a b a' b' : text) : has "LABEL" (a ++ removelast label_kw) = false ->
  a ++ label_kw ++ b = a' ++ label_kw ++ b' -> List.length a <= List.length a'.
Proof.
  intros H. apply first_occ; [discriminate|]. intros K. apply has_true in K. congruence.
Qed.

Lemma Forall2_map_l {A B} (f : B -> A) (P : A -> B -> Prop) l : (forall x, In x l -> P (f x) x) -> Forall2 P (map f l) l.
Proof. induction l; simpl; intros H; constructor; auto. Qed.

Lemma round_tripL_says (T : Type) (N : Num T) strtod IsNumeric opts (bs : list blockL) file (opt0 : list smap) :
  FileSaysL (config_linesL opts bs) file -> bs <> [] -> all_funcsL bs <> [] ->
  Forall (fun p => GoodPar N strtod IsNumeric (fst p) (snd p)) (all_paramsL bs) ->
  let says out :=
    o_names out = map fl_name (all_funcsL bs) /\
    o_labels out = map fl_label (all_funcsL bs) /\
    o_params out = map (fun p => strtod (fst p)) (all_paramsL bs) /\
    o_limits out = map (fun p => entry N strtod (snd p)) (all_paramsL bs) /\
    o_starts out = starts_fromL 0 bs /\
    o_limFound out = existsb (fun p => found (snd p)) (all_paramsL bs) /\
    Forall2 (fun m f => forall k v, map_get m k = Some v <-> last_value (opts_of f) k v)
            (o_opt out) (all_funcsL bs) in
  (exists out, ReadConfigFile_full N strtod IsNumeric file true [] = Ok (0%Z, Some (out, opts)) /\ says out) /\
  (exists out, ReadConfigFile_limited N strtod IsNumeric file true opt0 = Ok (0%Z, Some (out, opts)) /\ says out).
Proof.
  intros HF Hne Hfn HG says.
  assert (HS : forall out, ReadsTo N strtod bs out -> says out).
  { intros out (A1 & A2 & A3 & A4 & A5 & A6 & A7). unfold says. repeat split; auto.
    rewrite A7. apply Forall2_map_l. intros f _ k v. rewrite set_opts_get. simpl.
    split; [intros [H|[H _]]; [exact H|discriminate]|auto]. }
  destruct (@round_tripL T N strtod IsNumeric opts bs file HF Hne Hfn) as [(o1 & E1 & R1) H2].
  { apply Forall_map. eapply Forall_impl; [|exact HG]. intros p Hp. exact Hp. }
  destruct (H2 opt0) as (o2 & E2 & R2). split; eauto.
Qed.
