From Coq Require Import Ascii String List ZArith Lia Bool Sorted.
From Verif Require Import Config_Model StrUtil_Spec StrUtil_Proof Config_Spec.
Local Open Scope list_scope.
Set Implicit Arguments.
Unset Strict Implicit.

(** ---- substring search ---- *)
Lemma is_prefix_true p s : is_prefix p s = true <-> exists b, s = p ++ b.
Proof.
  revert s; induction p as [|x p IH]; intros s; simpl.
  - split; intros; eauto.
  - destruct s as [|y s].
    + split; [discriminate|intros (b & E); discriminate].
    + rewrite andb_true_iff, ch_eqb_true, IH. split.
      * intros [-> (b & ->)]. exists b. reflexivity.
      * intros (b & E). inversion E; subst. eauto.
Qed.

Lemma find_str_Some s p k : find_str s p = Some k -> k + List.length p <= List.length s /\ Contains p s.
Proof.
  revert k; induction s as [|c s IH]; intros k H; cbn [find_str] in H.
  - destruct (is_prefix p []) eqn:E; [|discriminate]. inversion H; subst.
    apply is_prefix_true in E. destruct E as (b & E). symmetry in E. apply app_eq_nil in E.
    destruct E; subst. split; [simpl; lia|]. exists [], []. reflexivity.
  - destruct (is_prefix p (c :: s)) eqn:E.
    + inversion H; subst. apply is_prefix_true in E. destruct E as (b & E).
      split; [rewrite E, app_length; lia|]. exists [], b. exact E.
    + destruct (find_str s p) as [j|] eqn:F; [|discriminate]. inversion H; subst.
      destruct (IH j eq_refl) as [L (a & b & ->)]. split; [simpl; lia|].
      exists (c :: a), b. reflexivity.
Qed.

Lemma find_str_None s p : find_str s p = None -> ~ Contains p s.
Proof.
  induction s as [|c s IH]; cbn [find_str]; intros H (a & b & E).
  - destruct (is_prefix p []) eqn:P; [discriminate|].
    symmetry in E. apply app_eq_nil in E. destruct E as [_ E]. apply app_eq_nil in E. destruct E; subst.
    discriminate.
  - destruct (is_prefix p (c :: s)) eqn:P; [discriminate|].
    destruct a as [|x a].
    + assert (is_prefix p (c :: s) = true) by (apply is_prefix_true; exists b; exact E). congruence.
    + inversion E; subst. apply IH; [|exists a, b; reflexivity].
      destruct (find_str (a ++ p ++ b) p); [discriminate|reflexivity].
Qed.

Lemma has_true k s : has k s = true <-> Kw k s.
Proof.
  unfold has, Kw. change (list_ascii_of_string k) with (lit k).
  destruct (find_str s (lit k)) as [j|] eqn:E.
  - split; auto. intros _. now apply find_str_Some in E.
  - split; [discriminate|]. intros H. exfalso. now apply find_str_None in E.
Qed.
Lemma has_false k s : has k s = false <-> ~ Kw k s.
Proof. rewrite <- has_true. destruct (has k s); split; congruence. Qed.

Lemma Kw_app_l k a b : Kw k a -> Kw k (a ++ b).
Proof. intros (x & y & ->). exists x, (y ++ b). now rewrite <- !app_assoc. Qed.
Lemma Kw_app_r k a b : Kw k b -> Kw k (a ++ b).
Proof. intros (x & y & ->). exists (a ++ x), y. now rewrite <- !app_assoc. Qed.

(** ---- totality of the text functions ---- *)
Lemma split_total s d : exists toks, SplitString s d = Ok toks.
Proof.
  destruct (find_first_of s d (find_first_not_of s d (Some 0))) as [p|] eqn:E.
  - assert (H : HasLaterDelim (fun c => In c d) s) by (apply later_delim_iff; congruence).
    destruct (proj1 (SplitString_ok d s) H) as (t & -> & _). eauto.
  - unfold SplitString. rewrite E. eauto.
Qed.
Lemma chop_total s c : exists r rest, ChopComment s c = Ok r /\ s = r ++ rest.
Proof. destruct (ChopComment_ok s c) as (r & rest & E & -> & _). eauto. Qed.
Lemma chop_idem s c r : ChopComment s c = Ok r -> ChopComment r c = Ok r.
Proof.
  intros E. destruct (ChopComment_ok s c) as (r' & rest & E' & _ & F & _).
  rewrite E in E'. inversion E'; subst. now apply ChopComment_none.
Qed.
Lemma chop_prefix s c r : ChopComment s c = Ok r -> exists rest, s = r ++ rest.
Proof. intros E. destruct (chop_total s c) as (r' & rest & E' & ->). rewrite E in E'. inversion E'; eauto. Qed.
Lemma trim_total s : exists t, TrimWhitespace s = Ok t.
Proof. destruct (TrimWhitespace_ok s) as (t & _ & ->). eauto. Qed.
Lemma label_total l : exists s, GetFunctionLabel l = Ok s.
Proof.
  unfold GetFunctionLabel. destruct (find_str l (lit "LABEL")) as [k|] eqn:E; eauto.
  apply find_str_Some in E. destruct E as [L _]. unfold substr. simpl in L.
  destruct (List.length l <? k + 5) eqn:B; [apply Nat.ltb_lt in B; lia|]. apply trim_total.
Qed.

(** ---- words ---- *)
Lemma Blank_ws c : Blank c <-> In c ws_delims.
Proof. reflexivity. Qed.

Lemma Body_chop l b : Body l b <-> ChopComment l hash = Ok b.
Proof.
  split.
  - intros (rest & -> & F & [->|(r & ->)]).
    + rewrite app_nil_r. now apply ChopComment_none.
    + now apply ChopComment_some.
  - intros E. destruct (ChopComment_ok l hash) as (r & rest & E' & -> & F & K).
    rewrite E in E'. inversion E'; subst. exists rest. auto.
Qed.

Lemma Tokens_two_later (D : ascii -> Prop) s t u ts :
  Tokens D s (t :: u :: ts) -> HasLaterDelim D s.
Proof. intros H. inversion H; subst. exists g, t, c, r. auto. Qed.

Lemma split_words s ws : Tokens Blank s ws -> 2 <= List.length ws -> SplitString s ws_delims = Ok ws.
Proof.
  intros H L. destruct ws as [|t [|u ws]]; simpl in L; try lia.
  assert (HL : HasLaterDelim (fun c => In c ws_delims) s) by exact (Tokens_two_later H).
  destruct (proj1 (SplitString_ok ws_delims s) HL) as (toks & E & HT).
  rewrite E. f_equal. symmetry. exact (Tokens_unique _ _ _ H _ HT).
Qed.

Section P.
  Variable T : Type.
  Variable N : Num T.
  Variable strtod : str -> T.
  Variable IsNumeric : str -> bool.
  Notation AddP := (AddParameterAndLimit N strtod).
  Notation ValidL := (ValidParameterLine IsNumeric).
  Notation parse := (parse_lines N strtod).

  Definition shape_ok (r : T * option (mp_par T) * Z) : Prop :=
    (snd r = (-1)%Z /\ snd (fst r) = None) \/ ((0 <= snd r)%Z /\ exists p, snd (fst r) = Some p).

  Lemma valid_add l b : ValidL l false = Ok (true, b) -> exists r, AddP b = Ok r /\ shape_ok r.
  Proof.
    unfold ValidParameterLine. destruct (chop_total l hash) as (b' & rest & E & _).
    rewrite E. cbn [bind]. destruct (split_total b' ws_delims) as (ps & Es). rewrite Es. cbn [bind].
    intros H.
    assert (b' = b).
    { destruct (2 <=? List.length ps); [|inversion H].
      destruct (get ps 1); cbn [bind] in H; try discriminate.
      destruct (negb (IsNumeric a)); [inversion H|].
      destruct (2 <? List.length ps); [|now inversion H].
      destruct (get ps 2); cbn [bind] in H; try discriminate.
      destruct (str_eqb a0 kw_fixed); [now inversion H|].
      destruct (SplitString a0 [comma]); cbn [bind] in H; try discriminate.
      destruct (negb (List.length a1 =? 2)); [inversion H|].
      destruct (get a1 0); cbn [bind] in H; try discriminate.
      destruct (get a1 1); cbn [bind] in H; try discriminate.
      now inversion H. }
    subst b'. unfold AddParameterAndLimit. rewrite (chop_idem E). cbn [bind]. rewrite Es. cbn [bind].
    destruct (2 <=? List.length ps) eqn:L2; [|discriminate].
    apply Nat.leb_le in L2.
    destruct (get_lt ps (i := 1)) as (s1 & E1); [lia|]. rewrite E1 in *. cbn [bind] in *.
    destruct (negb (IsNumeric s1)) eqn:I1; [inversion H|].
    destruct (2 <? List.length ps) eqn:L3.
    - apply Nat.ltb_lt in L3.
      destruct (get_lt ps (i := 2)) as (s2 & E2); [lia|]. rewrite E2 in *. cbn [bind] in *.
      destruct (str_eqb s2 kw_fixed).
      + eexists. split; [reflexivity|]. right. simpl. split; [lia|eauto].
      + destruct (SplitString s2 [comma]) as [q| | |] eqn:Eq; cbn [bind] in *; try discriminate.
        destruct (negb (List.length q =? 2)) eqn:Lq; [inversion H|].
        apply negb_false_iff, Nat.eqb_eq in Lq.
        destruct (get_lt q (i := 0)) as (a & Ea); [lia|]. destruct (get_lt q (i := 1)) as (c & Ec); [lia|].
        rewrite Ea, Ec. cbn [bind].
        destruct (find_char s2 comma (Some 0)).
        * destruct (nleb N (strtod c) (strtod a)); [eexists; split; [reflexivity|left; auto]|].
          destruct (nltb N (strtod s1) (strtod a) || nltb N (strtod c) (strtod s1));
            eexists; (split; [reflexivity|]); [left; auto|right; simpl; split; [lia|eauto]].
        * eexists; split; [reflexivity|right; simpl; split; [lia|eauto]].
    - eexists; split; [reflexivity|right; simpl; split; [lia|eauto]].
  Qed.

  Lemma valid_opt l b m : ValidL l true = Ok (true, b) -> exists m', AddOptionalParameter b m = Ok m'.
  Proof.
    unfold ValidParameterLine. destruct (chop_total l hash) as (b' & rest & E & _).
    rewrite E. cbn [bind]. destruct (split_total b' ws_delims) as (ps & Es). rewrite Es. cbn [bind].
    destruct (2 <=? List.length ps) eqn:L2; intros H; inversion H; subst.
    apply Nat.leb_le in L2. unfold AddOptionalParameter. rewrite (chop_idem E). cbn [bind]. rewrite Es. cbn [bind].
    destruct (get_lt ps (i := 0)) as (a & ->); [lia|]. destruct (get_lt ps (i := 1)) as (c & ->); [lia|].
    cbn [bind]. eauto.
  Qed.

  Lemma valid_prefix l o v b : ValidL l o = Ok (v, b) -> ChopComment l hash = Ok b.
  Proof.
    unfold ValidParameterLine. destruct (chop_total l hash) as (b' & rest & E & _).
    rewrite E. cbn [bind]. destruct (split_total b' ws_delims) as (ps & Es). rewrite Es. cbn [bind].
    intros H. f_equal.
    destruct (2 <=? List.length ps); [|now inversion H].
    destruct o; [now inversion H|].
    destruct (get ps 1); cbn [bind] in H; try discriminate.
    destruct (negb (IsNumeric a)); [now inversion H|].
    destruct (2 <? List.length ps); [|now inversion H].
    destruct (get ps 2); cbn [bind] in H; try discriminate.
    destruct (str_eqb a0 kw_fixed); [now inversion H|].
    destruct (SplitString a0 [comma]); cbn [bind] in H; try discriminate.
    destruct (negb (List.length a1 =? 2)); [now inversion H|].
    destruct (get a1 0); cbn [bind] in H; try discriminate.
    destruct (get a1 1); cbn [bind] in H; try discriminate.
    now inversion H.
  Qed.

  Lemma func_add l : FuncLine l -> exists nm, AddFunctionNameAndLabel l = Ok nm.
  Proof.
    intros (_ & _ & ws & (b & HB & HT) & L). unfold AddFunctionNameAndLabel.
    destruct (label_total l) as (lab & ->). cbn [bind].
    apply Body_chop in HB. rewrite HB. cbn [bind]. rewrite (split_words HT L). cbn [bind].
    destruct (get_lt ws (i := 1)) as (n & ->); [lia|]. cbn [bind]. eauto.
  Qed.

  (** relation between checked and unchecked lines *)
  Inductive Vetted : bool -> list str -> Prop :=
  | Ve_nil o : Vetted o []
  | Ve_func o l t : has "FUNCTION" l = true -> Vetted o t -> Vetted o (l :: t)
  | Ve_start o l t : has "FUNCTION" l = false -> has "OPTIONAL_PARAMS_START" l = true ->
      Vetted true t -> Vetted o (l :: t)
  | Ve_end o l t : has "FUNCTION" l = false -> has "OPTIONAL_PARAMS_START" l = false ->
      has "OPTIONAL_PARAMS_END" l = true -> Vetted false t -> Vetted o (l :: t)
  | Ve_par o l0 l t : has "FUNCTION" l = false -> has "OPTIONAL_PARAMS_START" l = false ->
      has "OPTIONAL_PARAMS_END" l = false -> ValidL l0 o = Ok (true, l) -> Vetted o t -> Vetted o (l :: t).

  Lemma chop_has k l b : ChopComment l hash = Ok b -> has k l = false -> has k b = false.
  Proof.
    intros E H. apply has_false in H. apply has_false. intros K. apply H.
    destruct (chop_prefix E) as (rest & ->). now apply Kw_app_l.
  Qed.

  Lemma vet_lines_Vetted ls : forall o k ls', vet_lines IsNumeric o k ls = Ok (inr ls') -> Vetted o ls'.
  Proof.
    induction ls as [|l t IH]; intros o k ls' H; cbn [vet_lines] in H.
    - inversion H; subst. constructor.
    - destruct (has "FUNCTION" l) eqn:HF; cbn [negb] in H.
      + destruct (vet_lines IsNumeric o (S k) t) as [[b|t']| | |] eqn:E; cbn [bind] in H; try discriminate.
        inversion H; subst. apply Ve_func; eauto.
      + destruct (has "OPTIONAL_PARAMS_START" l) eqn:HS.
        { destruct (vet_lines IsNumeric true (S k) t) as [[b|t']| | |] eqn:E; cbn [bind] in H; try discriminate.
          inversion H; subst. apply Ve_start; eauto. }
        destruct (has "OPTIONAL_PARAMS_END" l) eqn:HE.
        { destruct (vet_lines IsNumeric false (S k) t) as [[b|t']| | |] eqn:E; cbn [bind] in H; try discriminate.
          inversion H; subst. apply Ve_end; eauto. }
        destruct (ValidL l o) as [[v b]| | |] eqn:EV; cbn [bind] in H; try discriminate.
        cbn [fst snd] in H. destruct v; cbn [negb] in H; [|discriminate].
        destruct (vet_lines IsNumeric o (S k) t) as [[b'|t']| | |] eqn:E; cbn [bind] in H; try discriminate.
        inversion H; subst.
        pose proof (valid_prefix EV) as EC.
        apply Ve_par with (l0 := l); eauto using chop_has.
  Qed.

  Lemma Vetted_par o l t : Vetted o (l :: t) -> has "FUNCTION" l = false ->
    has "OPTIONAL_PARAMS_START" l = false -> has "OPTIONAL_PARAMS_END" l = false ->
    exists l0, ValidL l0 o = Ok (true, l) /\ Vetted o t.
  Proof. intros H H1 H2 H3. inversion H; subst; try congruence. eauto. Qed.
  Lemma Vetted_func o l t : Vetted o (l :: t) -> has "FUNCTION" l = true -> Vetted o t.
  Proof. intros H H1. inversion H; subst; try congruence. Qed.
  Lemma Vetted_start o l t : Vetted o (l :: t) -> has "FUNCTION" l = false ->
    has "OPTIONAL_PARAMS_START" l = true -> Vetted true t.
  Proof. intros H H1 H2. inversion H; subst; try congruence. Qed.
  Lemma Vetted_end o l t : Vetted o (l :: t) -> has "FUNCTION" l = false ->
    has "OPTIONAL_PARAMS_START" l = false -> has "OPTIONAL_PARAMS_END" l = true -> Vetted false t.
  Proof. intros H H1 H2 H3. inversion H; subst; try congruence. Qed.

  Definition in_step (fn : nat) (opt_extra : nat) (st : pout T) : Prop :=
    List.length (o_params st) = List.length (o_limits st) /\
    List.length (o_names st) = fn /\ List.length (o_labels st) = fn /\
    List.length (o_opt st) = opt_extra + fn.

  Lemma add_par_ok (st : pout T) r fn e : shape_ok r -> in_step fn e st ->
    (exists st1, add_par true st r = (st1, true)) \/
    (exists st1, add_par true st r = (st1, false) /\ in_step fn e st1 /\ o_starts st1 = o_starts st).
  Proof.
    destruct r as [[v lim] code]. intros [[Hc Hl]|[Hc (p & Hl)]] (I1 & I2 & I3 & I4); simpl in *; subst.
    - left. eexists. reflexivity.
    - right. unfold add_par. eexists. split.
      + f_equal. apply Z.ltb_ge in Hc. now rewrite Hc.
      + unfold in_step; simpl. rewrite !app_length. simpl. repeat split; auto.
  Qed.

  Lemma parse_shape m2 f o ls : Shape m2 f o ls -> Vetted o ls ->
    forall fn e st, (f = true -> 0 < fn) -> (o = true -> 0 < fn) -> in_step fn e st ->
    exists code out, parse m2 true ls o fn st = Ok (code, out) /\
      (code = 0%Z \/ code = (-1)%Z) /\
      (code = 0%Z -> exists s m, StartsOf fn ls s m /\ o_starts out = o_starts st ++ s /\
                                 in_step m e out).
  Proof.
    induction 1 as [f o|f x t Em HX HS IH|f x y t Em HX HY HS IH|f x y t Em HX HY
                   |f o l t HF HS IH|o l t HL HS IH|f o l t HL HS IH|f o l t HL HS IH];
      intros HV fn e st Hf Ho Hst; cbn [parse_lines].
    - exists 0%Z, st. split; auto. split; auto. intros _. exists [], fn. rewrite app_nil_r.
      repeat split; try apply Hst. constructor.
    - (* 1D *)
      subst m2. destruct HX as (HX & HP1 & HP2 & HP3). pose proof HX as HX'. apply has_true in HX'. rewrite HX'.
      apply has_false in HP1, HP2, HP3.
      destruct (Vetted_par HV HP1 HP2 HP3) as (l0 & V1 & HV1).
      destruct (valid_add V1) as (r & -> & Hr). cbn [bind].
      set (st0 := mkOut _ _ _ _ (o_starts st ++ [fn]) _ _).
      assert (Hst0 : in_step fn e st0) by exact Hst.
      destruct (add_par_ok Hr Hst0) as [(st1 & ->)|(st1 & -> & Hst1 & Es)].
      + exists (-1)%Z, st1. split; auto. split; auto. discriminate.
      + destruct (IH HV1 fn e st1 Hf ltac:(assumption || discriminate) Hst1) as (code & out & E & Hc & Hp).
        exists code, out. split; [exact E|]. split; auto. intros Hz.
        destruct (Hp Hz) as (s & m & HSO & Eo & Hin). exists (fn :: s), m. split; [|split; auto].
        * apply SO_x0; auto.
        * rewrite Eo, Es. unfold st0; simpl. now rewrite <- app_assoc.
    - (* 2D with Y0 *)
      subst m2. destruct HX as (HX & HP1 & HP2 & HP3). pose proof HX as HX'. apply has_true in HX'. rewrite HX'.
      apply has_false in HP1, HP2, HP3.
      destruct (Vetted_par HV HP1 HP2 HP3) as (l0 & V1 & HV1).
      destruct (valid_add V1) as (r & -> & Hr). cbn [bind].
      set (st0 := mkOut _ _ _ _ (o_starts st ++ [fn]) _ _).
      assert (Hst0 : in_step fn e st0) by exact Hst.
      destruct (add_par_ok Hr Hst0) as [(st1 & ->)|(st1 & -> & Hst1 & Es)].
      { exists (-1)%Z, st1. split; auto. split; auto. discriminate. }
      destruct HY as (HY & (HQ1 & HQ2 & HQ3) & HY0).
      apply has_true in HY. rewrite HY. cbn [negb].
      assert (HQ1' := HQ1). apply has_false in HQ1, HQ2, HQ3.
      destruct (Vetted_par HV1 HQ1 HQ2 HQ3) as (l1 & V2 & HV2).
      destruct (valid_add V2) as (r2 & -> & Hr2). cbn [bind].
      destruct (add_par_ok Hr2 Hst1) as [(st2 & ->)|(st2 & -> & Hst2 & Es2)].
      { exists (-1)%Z, st2. split; auto. split; auto. discriminate. }
      destruct (IH HV2 fn e st2 Hf ltac:(discriminate) Hst2) as (code & out & E & Hc & Hp).
      exists code, out. split; [exact E|]. split; auto. intros Hz.
      destruct (Hp Hz) as (s & m & HSO & Eo & Hin). exists (fn :: s), m. split; [|split; auto].
      + apply SO_x0; auto. apply SO_oth; auto.
      + rewrite Eo, Es2, Es. unfold st0; simpl. now rewrite <- app_assoc.
    - (* missing Y0 *)
      subst m2. destruct HX as (HX & HP1 & HP2 & HP3). apply has_true in HX. rewrite HX.
      apply has_false in HP1, HP2, HP3.
      destruct (Vetted_par HV HP1 HP2 HP3) as (l0 & V1 & HV1).
      destruct (valid_add V1) as (r & -> & Hr). cbn [bind].
      set (st0 := mkOut _ _ _ _ (o_starts st ++ [fn]) _ _).
      assert (Hst0 : in_step fn e st0) by exact Hst.
      destruct (add_par_ok Hr Hst0) as [(st1 & ->)|(st1 & -> & Hst1 & Es)].
      { exists (-1)%Z, st1. split; auto. split; auto. discriminate. }
      apply has_false in HY. rewrite HY. cbn [negb].
      exists (-1)%Z, st1. split; auto. split; auto. discriminate.
    - (* FUNCTION *)
      destruct (func_add HF) as (nm & En). destruct HF as (HF & HX & _).
      assert (HX' := HX). assert (HF' := HF).
      apply has_false in HX'. apply has_true in HF'. rewrite HX', HF', En. cbn [bind].
      pose proof (Vetted_func HV HF') as HV1.
      destruct Hst as (I1 & I2 & I3 & I4).
      match goal with |- context [parse m2 true t o (S fn) ?s] => set (st1 := s) end.
      assert (Hst1 : in_step (S fn) e st1).
      { unfold in_step, st1; simpl. rewrite !app_length. simpl. repeat split; lia. }
      destruct (IH HV1 (S fn) e st1) as (code & out & E & Hc & Hp); [intros; lia|intros; lia|exact Hst1|].
      exists code, out. split; [exact E|]. split; auto. intros Hz.
      destruct (Hp Hz) as (s & m & HSO & Eo & Hin). exists s, m. split; [|split; auto].
      apply SO_fun; auto.
    - (* START *)
      destruct HL as (HL & HX & HF). assert (HX' := HX). assert (HF' := HF).
      apply has_false in HX', HF'. apply has_true in HL. rewrite HX', HF', HL.
      pose proof (Vetted_start HV HF' HL) as HV1.
      destruct (IH HV1 fn e st Hf (fun _ => Hf eq_refl) Hst) as (code & out & E & Hc & Hp).
      exists code, out. split; [exact E|]. split; auto. intros Hz.
      destruct (Hp Hz) as (s & m & HSO & Eo & Hin). exists s, m. split; [|split; auto].
      apply SO_oth; auto.
    - (* END *)
      destruct HL as (HL & HX & HF & HSt). assert (HX' := HX). assert (HF' := HF).
      apply has_false in HX', HF', HSt. apply has_true in HL. rewrite HX', HF', HSt, HL.
      pose proof (Vetted_end HV HF' HSt HL) as HV1.
      destruct (IH HV1 fn e st Hf ltac:(discriminate) Hst) as (code & out & E & Hc & Hp).
      exists code, out. split; [exact E|]. split; auto. intros Hz.
      destruct (Hp Hz) as (s & m & HSO & Eo & Hin). exists s, m. split; [|split; auto].
      apply SO_oth; auto.
    - (* plain *)
      destruct HL as ((HF & HSt & HE) & HX). assert (HX' := HX). assert (HF' := HF).
      apply has_false in HX', HF', HSt, HE. rewrite HX', HF', HSt, HE.
      destruct (Vetted_par HV HF' HSt HE) as (l0 & V1 & HV1).
      destruct o.
      + destruct fn as [|k].
        { specialize (Ho eq_refl). lia. }
        destruct Hst as (I1 & I2 & I3 & I4).
        destruct (get_lt (o_opt st) (i := k)) as (mm & ->); [lia|]. cbn [bind].
        destruct (valid_opt mm V1) as (m' & ->). cbn [bind].
        rewrite set_lt by lia. cbn [bind].
        match goal with |- context [parse m2 true t true (S k) ?s] => set (st1 := s) end.
        assert (Hst1 : in_step (S k) e st1).
        { unfold in_step, st1; simpl. rewrite upd_length. auto. }
        destruct (IH HV1 (S k) e st1 Hf Ho Hst1) as (code & out & E & Hc & Hp).
        exists code, out. split; [exact E|]. split; auto. intros Hz.
        destruct (Hp Hz) as (s & m & HSO & Eo & Hin). exists s, m. split; [|split; auto].
        apply SO_oth; auto.
      + destruct (valid_add V1) as (r & -> & Hr). cbn [bind].
        destruct (add_par_ok Hr Hst) as [(st1 & ->)|(st1 & -> & Hst1 & Es)].
        { exists (-1)%Z, st1. split; auto. split; auto. discriminate. }
        destruct (IH HV1 fn e st1 Hf ltac:(assumption || discriminate) Hst1) as (code & out & E & Hc & Hp).
        exists code, out. split; [exact E|]. split; auto. intros Hz.
        destruct (Hp Hz) as (s & m & HSO & Eo & Hin). exists s, m. split; [|split; auto].
        * apply SO_oth; auto.
        * now rewrite Eo, Es.
  Qed.

  (** ---- VetConfigFile ---- *)
  Lemma find_line_Some p ls i : find_line p ls = Some i ->
    exists a x b, ls = a ++ x :: b /\ List.length a = i /\ p x = true /\ Forall (fun l => p l = false) a.
  Proof.
    revert i; induction ls as [|l t IH]; intros i H; cbn [find_line] in H; [discriminate|].
    destruct (p l) eqn:E.
    - inversion H; subst. exists [], l, t. auto.
    - destruct (find_line p t) as [j|]; [|discriminate]. inversion H; subst.
      destruct (IH j eq_refl) as (a & x & b & -> & La & Hx & Ha).
      exists (l :: a), x, b. simpl. auto.
  Qed.
  Lemma find_line_app p a x b : Forall (fun l => p l = false) a -> p x = true ->
    find_line p (a ++ x :: b) = Some (List.length a).
  Proof.
    intros Ha Hx. induction a as [|y a IH]; simpl; [now rewrite Hx|].
    inversion Ha; subst. rewrite H1, IH; auto.
  Qed.

  Lemma vet_accept ls nums m2 z ls' bad :
    VetConfigFile IsNumeric ls nums m2 = Ok (z, ls', bad) -> (0 <= z)%Z ->
    exists pre x post t, ls = pre ++ x :: post /\ z = Z.of_nat (List.length pre) /\
      ls' = pre ++ t /\ Vetted false t /\ Kw "X0" x /\ Forall (fun l => ~ Kw "X0" l) pre /\
      List.length t = List.length (x :: post) /\
      (m2 = true -> exists y r, post = y :: r /\ Kw "Y0" y) /\
      (exists f, In f (x :: post) /\ Kw "FUNCTION" f).
  Proof.
    unfold VetConfigFile. destruct (find_line (has "X0") ls) as [i|] eqn:EX.
    2:{ intros H Hz. inversion H; subst. unfold NOFUNCSECTION in Hz. lia. }
    destruct (find_line_Some EX) as (a & x & b & -> & La & Hx & Ha). subst i.
    match goal with |- (if ?c then _ else _) = _ -> _ => destruct c eqn:EY end.
    { destruct (get nums (List.length a)); cbn [bind]; intros H Hz; inversion H; subst.
      unfold INCOMPLETEXY in Hz. lia. }
    rewrite skipn_app_len, firstn_app_len.
    destruct (find_line (has "FUNCTION") (x :: b)) as [k|] eqn:EF.
    2:{ intros H Hz. inversion H; subst. unfold NOFUNCTIONS in Hz. lia. }
    destruct (vet_lines IsNumeric false (List.length a) (x :: b)) as [[k'|t]| | |] eqn:EV; cbn [bind];
      try discriminate.
    { destruct (get nums k'); cbn [bind]; intros H Hz; inversion H; subst.
      unfold BADPARAMLINE in Hz. lia. }
    intros H Hz. inversion H; subst. exists a, x, b, t.
    assert (LT : forall ls o k t, vet_lines IsNumeric o k ls = Ok (inr t) -> List.length t = List.length ls).
    { clear. induction ls as [|l ls IH]; intros o k t H; cbn [vet_lines] in H.
      - now inversion H.
      - destruct (negb (has "FUNCTION" l)).
        + destruct (has "OPTIONAL_PARAMS_START" l).
          { destruct (vet_lines IsNumeric true (S k) ls) as [[?|?]| | |] eqn:E; cbn [bind] in H; try discriminate.
            inversion H; subst. simpl. f_equal. eauto. }
          destruct (has "OPTIONAL_PARAMS_END" l).
          { destruct (vet_lines IsNumeric false (S k) ls) as [[?|?]| | |] eqn:E; cbn [bind] in H; try discriminate.
            inversion H; subst. simpl. f_equal. eauto. }
          destruct (ValidL l o) as [[v b]| | |]; cbn [bind] in H; try discriminate.
          destruct (negb (fst (v, b))); [discriminate|].
          destruct (vet_lines IsNumeric o (S k) ls) as [[?|?]| | |] eqn:E; cbn [bind] in H; try discriminate.
          inversion H; subst. simpl. f_equal. eauto.
        + destruct (vet_lines IsNumeric o (S k) ls) as [[?|?]| | |] eqn:E; cbn [bind] in H; try discriminate.
          inversion H; subst. simpl. f_equal. eauto. }
    repeat split; auto.
    - eapply vet_lines_Vetted; eauto.
    - now apply has_true.
    - eapply Forall_impl; [|exact Ha]. intros l Hl. now apply has_false.
    - eauto.
    - intros ->. cbn [andb] in EY.
      assert (En : nth_error (a ++ x :: b) (S (List.length a)) = nth_error b 0).
      { rewrite nth_error_app2 by lia. replace (S (List.length a) - List.length a) with 1 by lia. reflexivity. }
      rewrite En in EY. destruct b as [|y r]; simpl in EY; [discriminate|].
      apply negb_false_iff, has_true in EY. eauto.
    - destruct (find_line_Some EF) as (a' & f & b' & E' & _ & Hf & _).
      exists f. rewrite E'. split; [apply in_or_app; right; left; reflexivity|now apply has_true].
  Qed.

  Lemma vetted_parse_ok ls nums m2 z ls' bad opt0 :
    VetConfigFile IsNumeric ls nums m2 = Ok (z, ls', bad) -> (0 <= z)%Z ->
    Shape m2 false false (skipn (Z.to_nat z) ls') ->
    exists code out,
      ParseFunctionSection N strtod (skipn (Z.to_nat z) ls') m2 true opt0 = Ok (code, out) /\
      (code = 0%Z \/ code = (-1)%Z) /\
      (code = 0%Z ->
        List.length (o_params out) = List.length (o_limits out) /\
        List.length (o_labels out) = List.length (o_names out) /\
        List.length (o_opt out) = List.length opt0 + List.length (o_names out) /\
        StartsOf 0 (skipn (Z.to_nat z) ls') (o_starts out) (List.length (o_names out))).
  Proof.
    intros HV Hz HS. destruct (vet_accept HV Hz) as (pre & x & post & t & -> & -> & -> & Hve & _).
    rewrite Nat2Z.id, skipn_app_len in *. unfold ParseFunctionSection.
    destruct (@parse_shape m2 false false t HS Hve 0 (List.length opt0) (mkOut [] [] [] [] [] false opt0))
      as (code & out & E & Hc & Hp); try discriminate.
    { unfold in_step; simpl. auto. }
    exists code, out. split; auto. split; auto. intros Hc0.
    destruct (Hp Hc0) as (s & m & HSO & Es & (I1 & I2 & I3 & I4)).
    simpl in Es. rewrite Es, I2. repeat split; auto.
  Qed.
End P.

(** ---- strictly increasing block starts ---- *)
Lemma StartsOf_ge n ls s m : StartsOf n ls s m -> Forall (fun k => n <= k) s /\ n <= m.
Proof.
  induction 1 as [n|n l t s m H1 H2 [IH1 IH2]|n l t s m H0 H1 H2 [IH1 IH2]|n l t s m H0 H1 H2 [IH1 IH2]]; auto.
  split; [|lia]. eapply Forall_impl; [|exact IH1]. simpl. lia.
Qed.
Lemma StartsOf_func c : forall f d n s m, StartsOf n (c ++ f :: d) s m -> Kw "FUNCTION" f -> ~ Kw "X0" f ->
  Forall (fun l => ~ Kw "X0" l) c -> Forall (fun k => S n <= k) s /\ S n <= m.
Proof.
  induction c as [|l c IH]; intros f d n s m H Hf Hx Hc; simpl in H.
  - inversion H; subst; try tauto. eapply StartsOf_ge; eauto.
  - inversion Hc; subst. inversion H; subst; try tauto.
    + destruct (IH f d (S n) s m) as [A B]; auto. split; [|lia].
      eapply Forall_impl; [|exact A]. simpl. lia.
    + eapply IH; eauto.
Qed.
Lemma StartsOf_sorted n ls s m : StartsOf n ls s m -> EveryBlockHasFunction ls ->
  Sorted.StronglySorted lt s /\ Forall (fun k => k < m) s.
Proof.
  assert (Tail : forall l t, EveryBlockHasFunction (l :: t) -> EveryBlockHasFunction t).
  { intros l t HB a x b E Hx. apply (HB (l :: a) x b); [now rewrite E|auto]. }
  induction 1 as [n|n l t s m H1 H2 IH|n l t s m H0 H1 H2 IH|n l t s m H0 H1 H2 IH]; intros HB; eauto.
  - split; constructor.
  - destruct (IH (Tail _ _ HB)) as [A B].
    destruct (HB [] l t eq_refl H1) as (c & f & d & -> & Hf & Hx & Hc).
    destruct (StartsOf_func H2 Hf Hx Hc) as [C D].
    split; constructor; auto.
Qed.

(** ---- trimming a line keeps its words ---- *)
Lemma blank_Blank c : blank c <-> Blank c.
Proof.
  unfold blank, Blank, spc, tab, nl. simpl. split.
  - intros [->|[->| ->]]; auto.
  - intros [<-|[<-|[<-|[]]]]; auto.
Qed.
Lemma only_blank g : only blank g <-> Forall Blank g.
Proof. unfold only. rewrite !Forall_forall. split; intros H x Hx; apply blank_Blank, H; auto. Qed.

Section Tk.
  Variable D : ascii -> Prop.
  Lemma Tokens_lead g s ws : only D g -> Tokens D s ws -> Tokens D (g ++ s) ws.
  Proof.
    intros Hg H. inversion H; subst.
    - constructor. apply Forall_app; auto.
    - rewrite app_assoc. apply Tok_last; auto. apply Forall_app; auto.
    - rewrite app_assoc. apply Tok_more; auto. apply Forall_app; auto.
  Qed.
  Lemma Tokens_trail h s ws : only D h -> Tokens D s ws -> Tokens D (s ++ h) ws.
  Proof.
    intros Hh. induction 1 as [g Hg|g t Hg Hne Ht|g t c r ts Hg Hne Ht Hc HT IH].
    - constructor. apply Forall_app; auto.
    - destruct h as [|c h].
      + rewrite app_nil_r. apply Tok_last; auto.
      + rewrite <- app_assoc. inversion Hh; subst. apply Tok_more; auto. constructor. auto.
    - rewrite <- !app_assoc. simpl. apply Tok_more; auto.
  Qed.
End Tk.
Lemma Tokens_exist s : exists ws, Tokens Blank s ws.
Proof. destruct (SplitStringAdd_ok ws_delims s []) as (ws & _ & H). exists ws. exact H. Qed.
Lemma Tokens_strip g h s ws : Forall Blank g -> Forall Blank h ->
  Tokens Blank (g ++ s ++ h) ws -> Tokens Blank s ws.
Proof.
  intros Hg Hh H. destruct (Tokens_exist s) as (ws' & H').
  assert (H2 : Tokens Blank (g ++ s ++ h) ws') by (apply Tokens_lead; auto; apply Tokens_trail; auto).
  rewrite (Tokens_unique _ _ _ H _ H2). exact H'.
Qed.

Lemma hash_not_blank : ~ Blank hash.
Proof. unfold Blank, hash. simpl. intros [H|[H|[H|[]]]]; discriminate H. Qed.

Lemma trim_words l ws : Words l ws -> 2 <= List.length ws ->
  exists a t h, l = a ++ t ++ h /\ TrimWhitespace l = Ok t /\ Words t ws /\
              exists c r, t = c :: r /\ c <> hash.
Proof.
  intros (b & (rest & -> & Fb & Hr) & HT) L.
  destruct (TrimWhitespace_ok (b ++ rest)) as (t & (g & h & E & Hg & Hh & K) & ET).
  apply only_blank in Hg, Hh.
  (* the first word *)
  destruct ws as [|w [|u ws]]; simpl in L; try lia.
  inversion HT as [ | | g0 w' c0 r0 ts Hg0 Hwne Hwtok Hc0 HT0 E0 E1]; subst.
  destruct w as [|w0 w]; [congruence|].
  assert (Nw0 : ~ Blank w0) by (inversion Hwtok; auto).
  destruct K as [->|[(t0 & t' & Et & Nt0) (t'' & t1 & Et2 & Nt1)]].
  { (* everything blank: impossible *)
    exfalso. simpl in E. assert (FB : Forall Blank (g ++ h)) by (apply Forall_app; auto).
    rewrite <- E in FB. apply Forall_app in FB. destruct FB as [FB _]. apply Forall_app in FB.
    destruct FB as [_ FB]. inversion FB; auto. }
  assert (Eg : g0 = g /\ w0 :: w ++ c0 :: r0 ++ rest = t0 :: t' ++ h).
  { apply (@run_unique Blank).
    - rewrite Et in E. repeat (rewrite <- app_assoc in E; simpl in E). exact E.
    - auto.
    - auto.
    - auto.
    - intros B. apply Nt0. apply blank_Blank. exact B. }
  destruct Eg as [-> Eg].
  set (b1 := (w0 :: w) ++ c0 :: r0) in *.
  assert (Eg2 : t ++ h = b1 ++ rest).
  { rewrite Et. simpl. rewrite <- Eg. unfold b1. simpl. now rewrite <- app_assoc. }
  assert (Tb1 : Tokens Blank b1 ((w0 :: w) :: u :: ws)).
  { apply (@Tokens_strip g [] b1); auto. now rewrite app_nil_r. }
  assert (Fb1 : Forall (fun c => c <> ascii_of_nat 35) b1) by (apply Forall_app in Fb; tauto).
  assert (WT : Words t ((w0 :: w) :: u :: ws)).
  { destruct Hr as [->|(r & ->)].
    - rewrite app_nil_r in Eg2. exists t. split.
      + exists []. rewrite app_nil_r. split; auto. split; auto.
        rewrite <- Eg2 in Fb1. apply Forall_app in Fb1. tauto.
      + apply (@Tokens_strip [] h t); auto. simpl. now rewrite Eg2.
    - exists b1. split; [|auto].
      destruct (@app_eq_app _ _ _ _ _ Eg2) as (q & [[Eq1 Eq2]|[Eq1 Eq2]]).
      + exists q. split; auto. split; auto.
        destruct q as [|q0 q]; [left; auto|]. right. inversion Eq2; subst. eauto.
      + exfalso. rewrite Eq2 in Hh. apply Forall_app in Hh. destruct Hh as [_ Hh].
        inversion Hh; subst. now apply hash_not_blank. }
  exists g, t, h. split; [rewrite E; reflexivity|]. split; [|split; auto].
  - rewrite ET. destruct t as [|x [|y t]]; auto.
    exfalso. destruct WT as (b2 & (rest2 & E2 & _) & T2).
    destruct (Tokens_two_later T2) as (g3 & t3 & c3 & r3 & E3 & _ & N3 & _).
    rewrite E3 in E2. apply (f_equal (@List.length _)) in E2. rewrite !app_length in E2. simpl in E2.
    destruct t3; [congruence|]. simpl in E2. lia.
  - exists t0, t'. split; auto. inversion Eg; subst. inversion Fb1; auto.
Qed.

Lemma trim_ignorable l : Ignorable l ->
  exists t, TrimWhitespace l = Ok t /\ (t = [] \/ exists r, t = hash :: r).
Proof.
  intros (g & r & -> & Fg & Hr).
  destruct (TrimWhitespace_ok (g ++ r)) as (t & (g' & h & E & Hg & Hh & K) & ET).
  apply only_blank in Hg, Hh. rewrite ET. eexists. split; [reflexivity|].
  destruct (List.length t =? 1); [left; reflexivity|].
  destruct K as [->|[(t0 & t' & Et & Nt0) _]]; [left; reflexivity|].
  destruct Hr as [->|(r' & ->)].
  - exfalso. rewrite app_nil_r in E. rewrite E in Fg. apply Forall_app in Fg. destruct Fg as [_ Fg].
    rewrite Et in Fg. inversion Fg; subst. apply Nt0. now apply blank_Blank.
  - right. subst t.
    destruct (@run_unique Blank g hash r' g' t0 (t' ++ h)) as [_ E2]; auto.
    + apply hash_not_blank.
    + intros B. apply Nt0. now apply blank_Blank.
    + inversion E2; subst. eauto.
Qed.

Lemma words_of_len d : 2 <= List.length (words_of d).
Proof. destruct d as [| | | |p]; simpl; lia. Qed.

Lemma not_Kw_infix k a t h : ~ Kw k (a ++ t ++ h) -> ~ Kw k t.
Proof. intros H K. apply H. apply Kw_app_r. now apply Kw_app_l. Qed.

Lemma says_trim d l : Says d l -> exists t, TrimWhitespace l = Ok t /\ Says d t /\
  exists c r, t = c :: r /\ c <> hash.
Proof.
  intros [HW HK]. destruct (trim_words HW (words_of_len d)) as (a & t & h & E & ET & WT & Hc).
  exists t. split; auto. split; auto. split; auto. subst l. unfold PosLine in *.
  destruct d; repeat split; try (eapply not_Kw_infix; apply HK || (apply (proj1 HK)) || (apply (proj2 HK)));
    try (eapply not_Kw_infix; intuition eauto).
Qed.

Lemma keep_says ds file : FileSays ds file -> forall k, exists ls nums,
  keep_lines k file = Ok (ls, nums) /\ Forall2 Says ds ls.
Proof.
  induction 1 as [|l ds ls HI HF IH|d l ds ls HS HF IH]; intros k; cbn [keep_lines].
  - eexists _, _. split; [reflexivity|constructor].
  - destruct (trim_ignorable HI) as (t & -> & Ht). cbn [bind].
    destruct (IH (k + 1)%Z) as (ls' & nums & -> & F). cbn [bind].
    destruct Ht as [->|(r & ->)]; eauto.
    rewrite ch_eqb_refl. eauto.
  - destruct (says_trim HS) as (t & -> & HS' & c & r & -> & Hc). cbn [bind].
    destruct (IH (k + 1)%Z) as (ls' & nums & -> & F). cbn [bind].
    rewrite ch_eqb_false by auto. cbn [fst snd].
    eexists _, _. split; [reflexivity|]. constructor; auto.
Qed.

(** ---- C06: reading back a written description ---- *)
Section RT.
  Variable T : Type.
  Variable N : Num T.
  Variable strtod : str -> T.
  Variable IsNumeric : str -> bool.
  Notation AddP := (AddParameterAndLimit N strtod).
  Notation ValidL := (ValidParameterLine IsNumeric).
  Notation GoodPar := (GoodPar N strtod IsNumeric).
  Notation GoodLine := (GoodLine N strtod IsNumeric).
  Notation entry := (entry N strtod).

  Definition code_of (l : limits_) : Z := if found l then 1%Z else 0%Z.

  Lemma comma_range lo hi : str_eqb (lo ++ comma :: hi) kw_fixed = false.
  Proof.
    destruct (str_eqb (lo ++ comma :: hi) kw_fixed) eqn:E; auto.
    apply str_eqb_true in E.
    assert (H : In comma kw_fixed) by (rewrite <- E; apply in_or_app; right; left; reflexivity).
    exfalso. unfold kw_fixed, lit, comma in H. simpl in H.
    repeat (destruct H as [H|H]; [discriminate H|]). exact H.
  Qed.

  Lemma par_line_ok l name v lim : Words l (name :: v :: limit_words lim) -> GoodPar v lim ->
    exists b, ChopComment l hash = Ok b /\ ValidL l false = Ok (true, b) /\
              AddP b = Ok (strtod v, Some (entry lim), code_of lim) /\
              AddP l = Ok (strtod v, Some (entry lim), code_of lim) /\
              Words b (name :: v :: limit_words lim).
  Proof.
    intros (b & HB & HT) (Hv & HG). apply Body_chop in HB. exists b. split; auto.
    assert (HS : SplitString b ws_delims = Ok (name :: v :: limit_words lim)).
    { apply split_words; auto. simpl. lia. }
    assert (HA : AddP b = AddP l).
    { unfold AddParameterAndLimit. rewrite HB, (chop_idem HB). reflexivity. }
    assert (HAl : AddP l = Ok (strtod v, Some (entry lim), code_of lim)).
    { unfold AddParameterAndLimit. rewrite HB. cbn [bind]. rewrite HS. cbn [bind].
      destruct lim as [| |lo hi].
      - reflexivity.
      - reflexivity.
      - destruct HG as (N1 & N2 & I1 & I2 & F1 & F2 & C1 & C2 & C3).
        cbn [limit_words List.length Nat.ltb Nat.leb]. unfold get at 1. cbn [nth_error bind].
        unfold get at 1. cbn [nth_error bind].
        change (ascii_of_nat 44) with comma. rewrite comma_range.
        assert (Ef : find_char (lo ++ comma :: hi) comma (Some 0) = Some (0 + List.length lo)).
        { apply (@find_char_app lo comma hi []). exact F1. }
        rewrite Ef. rewrite SplitString_two; auto. cbn [bind]. unfold get. cbn [nth_error bind].
        rewrite C1, C2, C3. reflexivity. }
    split; [|split; [now rewrite HA|split; auto]].
    - unfold ValidParameterLine. rewrite HB. cbn [bind]. rewrite HS. cbn [bind].
      destruct lim as [| |lo hi]; cbn [limit_words List.length Nat.ltb Nat.leb]; unfold get at 1; cbn [nth_error bind].
      + now rewrite Hv.
      + now rewrite Hv.
      + destruct HG as (N1 & N2 & I1 & I2 & F1 & F2 & C1 & C2 & C3).
        rewrite Hv. cbn [negb]. unfold get at 1; cbn [nth_error bind].
        change (ascii_of_nat 44) with comma. rewrite comma_range.
        rewrite SplitString_two; auto. cbn [bind]. unfold get. cbn [nth_error bind].
        cbn [List.length Nat.eqb negb]. rewrite I1, I2. reflexivity.
    - exists b. split; auto. apply Body_chop. exact (chop_idem HB).
  Qed.

  Lemma Words_first_kw k l ws : Words l (list_ascii_of_string k :: ws) -> Kw k l.
  Proof.
    intros (b & (rest & -> & _) & HT). apply Kw_app_l.
    inversion HT as [g Hg|g t Hg Hne Htok|g t c r ts Hg Hne Htok Hc HT0]; subst.
    - exists g, []. now rewrite app_nil_r.
    - exists g, (c :: r). reflexivity.
  Qed.
  Lemma X0_kw l ws : Words l (list_ascii_of_string "X0" :: ws) -> has "X0" l = true.
  Proof. intros H. apply has_true. eapply Words_first_kw; eauto. Qed.

  Lemma PosLine_has l : PosLine l ->
    has "FUNCTION" l = false /\ has "OPTIONAL_PARAMS_START" l = false /\ has "OPTIONAL_PARAMS_END" l = false.
  Proof. intros (H1 & H2 & H3). rewrite !has_false. auto. Qed.

  Lemma PosLine_prefix a b : PosLine (a ++ b) -> PosLine a.
  Proof. intros (H1 & H2 & H3). repeat split; intros K; [apply H1|apply H2|apply H3]; now apply Kw_app_l. Qed.

  Lemma vet_says ds ls : Forall2 Says ds ls -> Forall GoodLine ds ->
    forall k, exists ls', vet_lines IsNumeric false k ls = Ok (inr ls') /\ Forall2 Says ds ls'.
  Proof.
    induction 1 as [|d l ds ls HS HF IH]; intros HG k; cbn [vet_lines].
    - eexists. split; [reflexivity|constructor].
    - inversion HG as [|? ? Gd Gds]; subst. destruct (IH Gds (S k)) as (ls' & E & F).
      assert (Par : forall v lim name, words_of d = name :: v :: limit_words lim -> GoodPar v lim ->
                PosLine l -> (forall b rest, l = b ++ rest -> Words b (words_of d) -> Says d b) ->
                exists ls', vet_lines IsNumeric false k (l :: ls) = Ok (inr ls') /\ Forall2 Says (d :: ds) ls').
      { intros v lim name Ew Hp HP HK. destruct HS as [HW _]. rewrite Ew in HW.
        destruct (par_line_ok HW Hp) as (b & HB & HV & _ & _ & HWb).
        destruct (PosLine_has HP) as (P1 & P2 & P3).
        cbn [vet_lines]. rewrite P1, P2, P3, HV. cbn [negb bind fst snd]. rewrite E. cbn [bind].
        eexists. split; [reflexivity|]. constructor; auto.
        destruct (chop_prefix HB) as (rest & Er). apply (HK b rest Er). now rewrite Ew. }
      assert (NK : forall k b rest, l = b ++ rest -> ~ Kw k l -> ~ Kw k b).
      { intros kk b rest -> H K. apply H. now apply Kw_app_l. }
      destruct d as [kk vv|v lim|v lim|nm|p]; cbn [Config_Spec.GoodLine] in Gd.
      + tauto.
      + apply (Par v lim (list_ascii_of_string "X0")); auto; [apply (proj2 HS)|].
        intros b rest Er HWb. split; auto. destruct HS as [_ HP]. rewrite Er in HP.
        exact (PosLine_prefix HP).
      + apply (Par v lim (list_ascii_of_string "Y0")); auto; [apply (proj2 HS)|].
        intros b rest Er HWb. split; auto. destruct HS as [_ [HP HX]]. split; [|eauto].
        rewrite Er in HP. exact (PosLine_prefix HP).
      + destruct HS as [HW HX].
        assert (HFn : has "FUNCTION" l = true) by (apply has_true; eapply Words_first_kw; exact HW).
        rewrite HFn. cbn [negb]. rewrite E. cbn [bind]. eexists. split; [reflexivity|].
        constructor; auto. split; auto.
      + apply (Par (pa_val p) (pa_lim p) (pa_name p)); auto; [apply (proj2 HS)|].
        intros b rest Er HWb. split; auto. destruct HS as [_ [HP HX]]. split; [|eauto].
        rewrite Er in HP. exact (PosLine_prefix HP).
  Qed.

  (** effect of one parameter on the outputs *)
  Definition addp (st : pout T) (v : text) (l : limits_) : pout T :=
    mkOut (o_names st) (o_labels st) (o_params st ++ [strtod v]) (o_limits st ++ [entry l])
          (o_starts st) (o_limFound st || found l) (o_opt st).

  Lemma add_par_good chk st v l :
    add_par chk st (strtod v, Some (entry l), code_of l) = (addp st v l, false).
  Proof.
    unfold add_par, addp, code_of, push_opt. destruct (found l); simpl; f_equal; try apply andb_false_r.
  Qed.

  Notation parse := (parse_lines N strtod).
  Variable chk : bool.

  Lemma parse_pars ps : forall ls rest fn st,
    Forall2 Says (map DPar ps) ls -> Forall GoodLine (map DPar ps) ->
    parse true chk (ls ++ rest) false fn st =
    parse true chk rest false fn (fold_left (fun s p => addp s (pa_val p) (pa_lim p)) ps st).
  Proof.
    induction ps as [|p ps IH]; intros ls rest fn st HF HG; simpl in HF; inversion HF; subst; auto.
    inversion HG as [|? ? Gd Gds]; subst.
    match goal with H : Says (DPar p) ?y |- _ => destruct H as [HW [HP HX]]; rename y into y0 end.
    destruct (par_line_ok HW Gd) as (b & _ & _ & _ & HA & _).
    destruct (PosLine_has HP) as (P1 & P2 & P3). apply has_false in HX.
    cbn [app parse_lines]. rewrite HX, P1, P2, P3, HA. cbn [bind]. rewrite add_par_good.
    cbn [fold_left]. now apply IH.
  Qed.

  Lemma parse_fun f : forall ls rest fn st,
    Forall2 Says (func_lines f) ls -> Forall GoodLine (func_lines f) ->
    exists lab,
    parse true chk (ls ++ rest) false fn st =
    parse true chk rest false (S fn)
      (fold_left (fun s p => addp s (pa_val p) (pa_lim p)) (fu_params f)
         (mkOut (o_names st ++ [fu_name f]) (o_labels st ++ [lab]) (o_params st) (o_limits st)
                (o_starts st) (o_limFound st) (o_opt st ++ [[]]))).
  Proof.
    intros ls rest fn st HF HG. unfold func_lines in *. inversion HF as [|? l0 ? ls0 HS HF0]; subst.
    inversion HG as [|? ? Gd Gds]; subst. destruct HS as [HW HX].
    assert (HFn : has "FUNCTION" l0 = true) by (apply has_true; eapply Words_first_kw; exact HW).
    apply has_false in HX. cbn [app parse_lines]. rewrite HX, HFn.
    destruct (label_total l0) as (lab & EL). exists lab.
    unfold AddFunctionNameAndLabel. rewrite EL. cbn [bind].
    destruct HW as (b & HB & HT). apply Body_chop in HB. rewrite HB. cbn [bind].
    rewrite (split_words HT) by (simpl; lia). cbn [bind words_of]. unfold get. cbn [nth_error bind fst snd].
    now apply parse_pars.
  Qed.

  Lemma Forall2_app_l {A B} (R : A -> B -> Prop) a1 a2 b : Forall2 R (a1 ++ a2) b ->
    exists b1 b2, b = b1 ++ b2 /\ Forall2 R a1 b1 /\ Forall2 R a2 b2.
  Proof.
    intros H. apply Forall2_app_inv_l in H. destruct H as (b1 & b2 & H1 & H2 & ->). eauto.
  Qed.

  (** what a list of functions adds to the outputs *)
  Definition Adds (st out : pout T) (names : list text) (pars : list (text * limits_)) (starts : list nat) : Prop :=
    o_names out = o_names st ++ names /\
    o_params out = o_params st ++ map (fun p => strtod (fst p)) pars /\
    o_limits out = o_limits st ++ map (fun p => entry (snd p)) pars /\
    o_starts out = o_starts st ++ starts /\
    o_limFound out = o_limFound st || existsb (fun p => found (snd p)) pars /\
    o_opt out = o_opt st ++ repeat [] (List.length names) /\
    List.length (o_labels out) = List.length (o_labels st) + List.length names.

  Lemma Adds_nil st : Adds st st [] [] [].
  Proof. unfold Adds; simpl. rewrite !app_nil_r, orb_false_r, Nat.add_0_r. tauto. Qed.
  Lemma Adds_trans a b c n1 p1 s1 n2 p2 s2 :
    Adds a b n1 p1 s1 -> Adds b c n2 p2 s2 -> Adds a c (n1 ++ n2) (p1 ++ p2) (s1 ++ s2).
  Proof.
    intros (A1 & A2 & A3 & A4 & A5 & A6 & A7) (B1 & B2 & B3 & B4 & B5 & B6 & B7).
    unfold Adds. rewrite B1, B2, B3, B4, B5, B6, B7, A1, A2, A3, A4, A5, A6, A7.
    rewrite !app_length, repeat_app, !map_app, !app_assoc, existsb_app, orb_assoc.
    repeat split; auto. lia.
  Qed.

  Lemma Adds_pars ps : forall st,
    Adds st (fold_left (fun s p => addp s (pa_val p) (pa_lim p)) ps st) []
         (map (fun p => (pa_val p, pa_lim p)) ps) [].
  Proof.
    induction ps as [|p ps IH]; intros st; simpl; [apply Adds_nil|].
    change (@nil text) with (@nil text ++ []). change (@nil nat) with (@nil nat ++ []).
    eapply (@Adds_trans _ _ _ [] [(pa_val p, pa_lim p)] [] []); [|apply IH].
    unfold Adds, addp; simpl. rewrite !app_nil_r, orb_false_r, Nat.add_0_r. tauto.
  Qed.

  Lemma parse_funs fs : forall ls rest fn st,
    Forall2 Says (flat_map func_lines fs) ls -> Forall GoodLine (flat_map func_lines fs) ->
    exists st', parse true chk (ls ++ rest) false fn st = parse true chk rest false (fn + List.length fs) st' /\
      Adds st st' (map fu_name fs)
           (flat_map (fun f => map (fun p => (pa_val p, pa_lim p)) (fu_params f)) fs) [].
  Proof.
    induction fs as [|f fs IH]; intros ls rest fn st HF HG.
    - cbn [flat_map] in HF. inversion HF; subst. exists st. rewrite Nat.add_0_r. split; auto. apply Adds_nil.
    - cbn [flat_map] in HF, HG. apply Forall2_app_l in HF. destruct HF as (l1 & l2 & -> & H1 & H2).
      apply Forall_app in HG. destruct HG as [G1 G2].
      rewrite <- app_assoc.
      destruct (@parse_fun f l1 (l2 ++ rest) fn st H1 G1) as (lab & E).
      match type of E with _ = parse true chk _ false _ ?s => destruct (IH l2 rest (S fn) s H2 G2) as (st' & E2 & A2) end.
      exists st'. split.
      + rewrite E, E2. f_equal. simpl. lia.
      + cbn [flat_map map].
        change (fu_name f :: map fu_name fs) with ([fu_name f] ++ map fu_name fs).
        change (@nil nat) with (@nil nat ++ []).
        eapply Adds_trans; [|exact A2].
        change [fu_name f] with ([fu_name f] ++ []). change (@nil nat) with (@nil nat ++ []).
        match goal with |- Adds _ _ _ ?p _ => change p with ([] ++ p) end.
        eapply Adds_trans; [|apply Adds_pars].
        unfold Adds; simpl. rewrite !app_nil_r, orb_false_r, !app_length. simpl. tauto.
  Qed.

  Lemma parse_blocks bs : forall ls fn st,
    Forall2 Says (flat_map block_lines bs) ls -> Forall GoodLine (flat_map block_lines bs) ->
    exists st', parse true chk ls false fn st = Ok (0%Z, st') /\
      Adds st st' (all_names bs) (all_params bs) (starts_from fn bs).
  Proof.
    induction bs as [|b bs IH]; intros ls fn st HF HG.
    - cbn [flat_map] in HF. inversion HF; subst. exists st. split; auto. apply Adds_nil.
    - cbn [flat_map] in HF, HG. apply Forall2_app_l in HF. destruct HF as (l1 & l2 & -> & H1 & H2).
      apply Forall_app in HG. destruct HG as [G1 G2]. unfold block_lines in H1, G1.
      inversion H1 as [|? lx ? l1' HX H1']; subst. inversion H1' as [|? ly ? l1'' HY H1'']; subst.
      inversion G1 as [|? ? Gx G1']; subst. inversion G1' as [|? ? Gy G1'']; subst.
      destruct HX as [HWx HPx]. destruct HY as [HWy [HPy HNy]].
      destruct (par_line_ok HWx Gx) as (? & _ & _ & _ & HAx & _).
      destruct (par_line_ok HWy Gy) as (? & _ & _ & _ & HAy & _).
      cbn [app parse_lines]. rewrite (X0_kw HWx), HAx. cbn [bind]. rewrite add_par_good.
      assert (HYk : has "Y0" ly = true) by (apply has_true; eapply Words_first_kw; exact HWy).
      rewrite HYk. cbn [negb]. rewrite HAy. cbn [bind]. rewrite add_par_good.
      match goal with |- context [parse true chk (l1'' ++ l2) false fn ?s] => set (st1 := s) end.
      destruct (@parse_funs (bl_funcs b) l1'' l2 fn st1 H1'' G1'') as (st2 & E2 & A2).
      destruct (IH l2 (fn + List.length (bl_funcs b)) st2 H2 G2) as (st3 & E3 & A3).
      exists st3. split; [now rewrite E2|].
      unfold all_names, all_params. cbn [flat_map starts_from]. fold (all_names bs) (all_params bs).
      change (fn :: starts_from (fn + List.length (bl_funcs b)) bs)
        with ([fn] ++ starts_from (fn + List.length (bl_funcs b)) bs).
      eapply Adds_trans; [|exact A3]. unfold block_params.
      match goal with |- Adds _ _ ?n (?x :: ?y :: ?p) _ =>
        change n with ([] ++ n); change (x :: y :: p) with ([x; y] ++ p) end.
      rewrite <- (app_nil_r [fn]).
      eapply Adds_trans; [|exact A2].
      unfold Adds, st1, addp; simpl. rewrite !app_nil_r, orb_false_r, Nat.add_0_r, <- !app_assoc.
      simpl. repeat split; auto. destruct (found (snd (bl_x b))), (found (snd (bl_y b))), (o_limFound st); reflexivity.
  Qed.

  Lemma read_options_ok opts : forall ls,
    Forall2 Says (map (fun kv => DOpt (fst kv) (snd kv)) opts) ls -> read_options ls = Ok opts.
  Proof.
    induction opts as [|[k v] opts IH]; intros ls H; simpl in H; inversion H as [|? l ? ls' HS HF]; subst; auto.
    cbn [read_options]. destruct HS as [(b & HB & HT) _]. apply Body_chop in HB. rewrite HB. cbn [bind].
    rewrite (split_words HT) by (simpl; lia). cbn [bind words_of]. rewrite (IH ls' HF). reflexivity.
  Qed.

End RT.

Section RT2.
  Variable T : Type.
  Variable N : Num T.
  Variable strtod : str -> T.
  Variable IsNumeric : str -> bool.
  Lemma no_DFun ds q : Forall2 Says ds q -> Forall (fun l => has "FUNCTION" l = false) q ->
    forall n, ~ In (DFun n) ds.
  Proof.
    intros HF. induction HF as [|d l ds q HS HF IH]; intros HN n; [auto|].
    inversion HN; subst. intros [->|Hin]; [|eapply IH; eauto].
    destruct HS as [HW _]. apply has_false in H1. apply H1. eapply Words_first_kw. exact HW.
  Qed.
  Lemma all_names_DFun bs : all_names bs <> [] -> exists n, In (DFun n) (flat_map block_lines bs).
  Proof.
    intros H. destruct (all_names bs) as [|n t] eqn:E; [congruence|].
    assert (Hin : In n (all_names bs)) by (rewrite E; left; reflexivity).
    unfold all_names in Hin. apply in_flat_map in Hin. destruct Hin as (b & Hb & Hn).
    apply in_map_iff in Hn. destruct Hn as (f & <- & Hf). exists (fu_name f).
    apply in_flat_map. exists b. split; auto. right. right. apply in_flat_map. exists f. split; auto.
    left. reflexivity.
  Qed.

  Lemma round_trip_full opts bs file opt0 :
    FileSays (config_lines opts bs) file -> bs <> [] -> all_names bs <> [] ->
    Forall (GoodLine N strtod IsNumeric) (flat_map block_lines bs) ->
    exists out, ReadConfigFile_full N strtod IsNumeric file true opt0 = Ok (0%Z, Some (out, opts)) /\
      o_names out = all_names bs /\
      o_params out = map (fun p => strtod (fst p)) (all_params bs) /\
      o_limits out = map (fun p => entry N strtod (snd p)) (all_params bs) /\
      o_starts out = starts_from 0 bs /\
      o_limFound out = existsb (fun p => found (snd p)) (all_params bs) /\
      o_opt out = opt0 ++ repeat [] (List.length (all_names bs)).
  Proof.
    intros HF Hne Hfn HG.
    destruct (keep_says HF 0%Z) as (ls & nums & EK & F2).
    unfold config_lines in F2. apply Forall2_app_l in F2. destruct F2 as (lo & lb & -> & Fo & Fb).
    destruct bs as [|b bs]; [congruence|]. cbn [flat_map] in Fb.
    pose proof Fb as Fb0. apply Forall2_app_l in Fb. destruct Fb as (l1 & l2 & -> & H1 & H2).
    unfold block_lines in H1.
    inversion H1 as [|? lx ? l1' HX H1']; subst. inversion H1' as [|? ly ? l1'' HY H1'']; subst.
    unfold ReadConfigFile_full. rewrite EK. cbn [bind fst snd].
    assert (EF : find_line (has "X0") (lo ++ (lx :: ly :: l1'') ++ l2) = Some (List.length lo)).
    { cbn [app]. apply find_line_app.
      - clear -Fo. revert lo Fo. induction opts as [|kv opts IH]; intros lo Fo; simpl in Fo; inversion Fo; subst; constructor; auto.
        apply has_false. apply (proj2 H1).
      - destruct HX as [HW _]. exact (X0_kw HW). }
    destruct (vet_says Fb0 HG (List.length lo)) as (lv & EV & Fv).
    assert (EVet : VetConfigFile IsNumeric (lo ++ (lx :: ly :: l1'') ++ l2) nums true
                   = Ok (Z.of_nat (List.length lo), lo ++ lv, None)).
    { unfold VetConfigFile. rewrite EF.
      assert (En : nth_error (lo ++ (lx :: ly :: l1'') ++ l2) (S (List.length lo)) = Some ly).
      { rewrite nth_error_app2 by lia. replace (S (List.length lo) - List.length lo) with 1 by lia. reflexivity. }
      rewrite En.
      assert (HYk : has "Y0" ly = true) by (apply has_true; destruct HY as [HW _]; eapply Words_first_kw; exact HW).
      rewrite HYk. cbn [andb negb]. rewrite skipn_app_len, firstn_app_len.
      destruct (find_line (has "FUNCTION") ((lx :: ly :: l1'') ++ l2)) as [k|] eqn:EFn.
      - rewrite EV. cbn [bind]. reflexivity.
      - exfalso.
        assert (NF : Forall (fun l => has "FUNCTION" l = false) ((lx :: ly :: l1'') ++ l2)).
        { clear -EFn. remember ((lx :: ly :: l1'') ++ l2) as q. clear Heqq. induction q as [|x q IH]; constructor.
          - cbn [find_line] in EFn. destruct (has "FUNCTION" x); congruence.
          - apply IH. cbn [find_line] in EFn. destruct (has "FUNCTION" x); [congruence|].
            destruct (find_line (has "FUNCTION") q); [discriminate|auto]. }
        destruct (all_names_DFun Hfn) as (n & Hn). exact (no_DFun Fb0 NF Hn). }
    rewrite EVet. cbn [bind].
    destruct (Z.of_nat (List.length lo) <? 0)%Z eqn:EZ; [apply Z.ltb_lt in EZ; lia|].
    unfold skip_to. rewrite Nat2Z.id, skipn_app_len, firstn_app_len, (read_options_ok Fo). cbn [bind].
    unfold ParseFunctionSection.
    destruct (@parse_blocks T N strtod IsNumeric true (b :: bs) lv 0 (mkOut [] [] [] [] [] false opt0) Fv HG)
      as (out & EP & (A1 & A2 & A3 & A4 & A5 & A6 & A7)).
    rewrite EP. cbn [bind fst snd]. exists out. simpl in *. repeat split; auto.
  Qed.
End RT2.

(** ---- C07: what of the incoming optional-parameter vector can be seen ---- *)
Section Hist.
  Variable T : Type.
  Variable N : Num T.
  Variable strtod : str -> T.
  Variable IsNumeric : str -> bool.
  Notation parse := (parse_lines N strtod).

  Definition same_res (x y : res (Z * pout T)) : Prop :=
    match x, y with
    | Ok (c, a), Ok (d, b) => c = d /\ same_but_opt a b
    | Undef, Undef => True | Abort, Abort => True | Fuel, Fuel => True
    | _, _ => False
    end.

  Lemma add_par_same chk (a b : pout T) r : same_but_opt a b ->
    snd (add_par chk a r) = snd (add_par chk b r) /\
    same_but_opt (fst (add_par chk a r)) (fst (add_par chk b r)) /\
    o_opt (fst (add_par chk a r)) = o_opt a /\ o_opt (fst (add_par chk b r)) = o_opt b.
  Proof.
    destruct r as [[v l] c]. intros (E1 & E2 & E3 & E4 & E5 & E6). unfold add_par, same_but_opt; simpl.
    rewrite E1, E2, E3, E4, E5, E6. repeat split; auto.
  Qed.

  Lemma add_opt_total l m m' : match AddOptionalParameter l m, AddOptionalParameter l m' with
    | Ok _, Ok _ => True | Undef, Undef => True | Abort, Abort => True | Fuel, Fuel => True | _, _ => False end.
  Proof.
    unfold AddOptionalParameter. destruct (ChopComment l hash); cbn [bind]; auto.
    destruct (SplitString a ws_delims); cbn [bind]; auto.
    destruct (get a0 0); cbn [bind]; auto. destruct (get a0 1); cbn [bind]; auto.
  Qed.

  Lemma parse_hist m2 chk n : forall ls, List.length ls <= n -> forall o fn (a b : pout T),
    same_but_opt a b -> fn <= List.length (o_opt a) -> fn <= List.length (o_opt b) ->
    same_res (parse m2 chk ls o fn a) (parse m2 chk ls o fn b).
  Proof.
    induction n as [|n IH]; intros ls Hn o fn a b HE La Lb.
    { destruct ls; [|simpl in Hn; lia]. simpl. auto. }
    destruct ls as [|l t]; [simpl; auto|]. simpl in Hn. cbn [parse_lines].
    destruct (has "X0" l).
    - destruct (AddParameterAndLimit N strtod l) as [r| | |]; cbn [bind]; [|exact I..].
      set (a0 := mkOut (o_names a) _ _ _ _ _ _). set (b0 := mkOut (o_names b) _ _ _ _ _ _).
      assert (H0 : same_but_opt a0 b0).
      { destruct HE as (E1 & E2 & E3 & E4 & E5 & E6). unfold same_but_opt, a0, b0; simpl. rewrite E5. tauto. }
      destruct (@add_par_same chk a0 b0 r H0) as (S1 & S2 & S3 & S4).
      destruct (add_par chk a0 r) as [a1 sa]. destruct (add_par chk b0 r) as [b1 sb]. simpl in S1, S2, S3, S4.
      subst sb. destruct sa; [simpl; auto|].
      destruct m2.
      + destruct t as [|y t']; [exact I|]. destruct (negb (has "Y0" y)); [simpl; auto|].
        destruct (AddParameterAndLimit N strtod y) as [r2| | |]; cbn [bind]; [|exact I..].
        destruct (@add_par_same chk a1 b1 r2 S2) as (Q1 & Q2 & Q3 & Q4).
        destruct (add_par chk a1 r2) as [a2 sa2]. destruct (add_par chk b1 r2) as [b2 sb2]. simpl in Q1, Q2, Q3, Q4.
        subst sb2. destruct sa2; [simpl; auto|]. simpl in Hn.
        apply IH; auto; try lia; rewrite ?Q3, ?Q4, ?S3, ?S4; simpl; auto.
      + apply IH; auto; try lia; rewrite ?S3, ?S4; simpl; auto.
    - destruct (has "FUNCTION" l).
      + destruct (AddFunctionNameAndLabel l) as [nm| | |]; cbn [bind]; [|exact I..].
        apply IH; try lia.
        * destruct HE as (E1 & E2 & E3 & E4 & E5 & E6). unfold same_but_opt; simpl. rewrite E1, E2. tauto.
        * simpl. rewrite app_length. simpl. lia.
        * simpl. rewrite app_length. simpl. lia.
      + destruct (has "OPTIONAL_PARAMS_START" l); [apply IH; auto; lia|].
        destruct (has "OPTIONAL_PARAMS_END" l); [apply IH; auto; lia|].
        destruct o.
        * destruct fn as [|k]; [exact I|].
          destruct (get_lt (o_opt a) (i := k)) as (ma & Ea); [lia|].
          destruct (get_lt (o_opt b) (i := k)) as (mb & Eb); [lia|].
          rewrite Ea, Eb. cbn [bind]. pose proof (add_opt_total l ma mb) as HT.
          destruct (AddOptionalParameter l ma) as [m1| | |]; destruct (AddOptionalParameter l mb) as [m2'| | |];
            cbn [bind]; try tauto; try exact I.
          rewrite !set_lt by lia. cbn [bind].
          apply IH; simpl; rewrite ?upd_length; auto; try lia.
        * destruct (AddParameterAndLimit N strtod l) as [r| | |]; cbn [bind]; [|exact I..].
          destruct (@add_par_same chk a b r HE) as (S1 & S2 & S3 & S4).
          destruct (add_par chk a r) as [a1 sa]. destruct (add_par chk b r) as [b1 sb]. simpl in S1, S2, S3, S4.
          subst sb. destruct sa; [simpl; auto|].
          apply IH; auto; try lia; rewrite ?S3, ?S4; auto.
  Qed.

  Lemma read_full_hist file m2 opt0 opt1 :
    same_read (ReadConfigFile_full N strtod IsNumeric file m2 opt0)
              (ReadConfigFile_full N strtod IsNumeric file m2 opt1).
  Proof.
    unfold ReadConfigFile_full. destruct (keep_lines 0 file) as [kl| | |]; cbn [bind]; try exact I.
    destruct (VetConfigFile IsNumeric (fst kl) (snd kl) m2) as [[[z ls] bad]| | |]; cbn [bind]; try exact I.
    destruct (z <? 0)%Z; [reflexivity|].
    destruct (read_options (firstn (Z.to_nat z) ls)) as [op| | |]; cbn [bind]; try exact I.
    unfold ParseFunctionSection.
    pose proof (@parse_hist m2 true (List.length (skip_to z ls)) (skip_to z ls) (le_n _) false 0
      (mkOut [] [] [] [] [] false opt0) (mkOut [] [] [] [] [] false opt1)) as H.
    assert (HS : same_but_opt (mkOut (T:=T) [] [] [] [] [] false opt0) (mkOut [] [] [] [] [] false opt1))
      by (unfold same_but_opt; simpl; tauto).
    specialize (H HS (Nat.le_0_l _) (Nat.le_0_l _)).
    destruct (parse_lines N strtod m2 true (skip_to z ls) false 0 (mkOut [] [] [] [] [] false opt0)) as [[c a]| | |];
    destruct (parse_lines N strtod m2 true (skip_to z ls) false 0 (mkOut [] [] [] [] [] false opt1)) as [[d b]| | |];
      simpl in H; try tauto; simpl; tauto.
  Qed.
End Hist.
