From Coq Require Import Ascii String List ZArith Lia Bool Reals.
From Verif Require Import Base StrUtil_Model StrUtil_Spec StrUtil_Proof Config_Model Config_Spec Config_Proof ConfigL_Spec ConfigL_Proof.
From Verif Require Import Params_Model Params_Spec Params_Proof Build_Model Save_Model Save_Spec Build_Spec Build_Proof.
Set Implicit Arguments. Unset Strict Implicit.
Local Open Scope list_scope.

(** ---- keywords in texts made of parts ---- *)
Definition K4 : list string := ["X0"; "FUNCTION"; "OPTIONAL_PARAMS_START"; "OPTIONAL_PARAMS_END"]%string.
Definition Clear (s : text) : Prop := forall k, In k K4 -> ~ Kw k s.
Definition Sep (c : ascii) : Prop := forall k, In k K4 -> ~ In c (list_ascii_of_string k).

Lemma Kw_sep k (a b : text) c : ~ In c (list_ascii_of_string k) -> Kw k (a ++ c :: b) -> Kw k a \/ Kw k b.
Proof.
  unfold Kw, Contains. set (p := list_ascii_of_string k). intros Hc (u & v & E).
  revert a E. induction u as [|x u IH]; intros a E.
  - cbn [app] in E. left.
    assert (H : forall p a, ~ In c p -> a ++ c :: b = p ++ v -> exists w, a = p ++ w).
    { clear. induction p as [|y p IH]; intros a Hc E; [exists a; reflexivity|].
      destruct a as [|z a]; cbn in E; inversion E; subst.
      - exfalso. apply Hc. left. reflexivity.
      - destruct (IH a) as (w & ->); auto. + intros K. apply Hc. right. exact K. + exists w. reflexivity. }
    destruct (H p a Hc E) as (w & ->). exists [], w. reflexivity.
  - destruct a as [|z a]; cbn in E; inversion E; subst.
    + right. exists u, v. reflexivity.
    + destruct (IH a) as [(u' & v' & ->)|H]; auto. left. exists (x :: u'), v'. reflexivity.
Qed.
Lemma Clear_sep a b c : Sep c -> Clear a -> Clear b -> Clear (a ++ c :: b).
Proof. intros Hc Ha Hb k Hk K. destruct (Kw_sep (Hc k Hk) K) as [H|H]; [exact (Ha k Hk H)|exact (Hb k Hk H)]. Qed.
Lemma Sep_in c : In c [ascii_of_nat 9; ascii_of_nat 10; ascii_of_nat 32; ascii_of_nat 35] -> Sep c.
Proof.
  intros Hc. unfold Sep.
  assert (H : forallb (fun c => forallb (fun k => negb (existsb (fun d => ch_eqb c d) (list_ascii_of_string k))) K4)
     [ascii_of_nat 9; ascii_of_nat 10; ascii_of_nat 32; ascii_of_nat 35] = true) by (vm_compute; reflexivity).
  rewrite forallb_forall in H. specialize (H c Hc). rewrite forallb_forall in H.
  intros k Hk Hin. specialize (H k Hk). apply negb_true_iff in H.
  assert (E : existsb (fun d => ch_eqb c d) (list_ascii_of_string k) = true).
  { apply existsb_exists. exists c. split; auto. apply ch_eqb_true. reflexivity. }
  congruence.
Qed.
Definition clearb (s : str) : bool := forallb (fun k => negb (has k s)) K4.
Lemma clearb_true s : clearb s = true -> Clear s.
Proof.
  unfold clearb. rewrite forallb_forall. intros H k Hk K. specialize (H k Hk). apply negb_true_iff in H.
  apply has_true in K. congruence.
Qed.
Lemma Clear_nil : Clear []. Proof. apply clearb_true. reflexivity. Qed.

Definition capital (c : ascii) : Prop := (65 <= nat_of_ascii c <= 90)%nat.
Lemma K4_capital k : In k K4 -> exists c, In c (list_ascii_of_string k) /\ capital c.
Proof.
  intros [<-|[<-|[<-|[<-|[]]]]]; (eexists; split; [left; reflexivity|]); unfold capital; cbn; lia.
Qed.
Lemma Clear_small s : Forall (fun c => ~ capital c) s -> Clear s.
Proof.
  intros H k Hk (a & b & E). destruct (K4_capital Hk) as (c & Hc & HC).
  rewrite Forall_forall in H. apply (H c); auto. rewrite E. apply in_or_app. right. apply in_or_app. left. exact Hc.
Qed.
Lemma Harmless_clear s : Forall Harmless s -> Clear s.
Proof. intros H. apply Clear_small. eapply Forall_impl; [|exact H]. intros c (_ & _ & Hc). exact Hc. Qed.

(** ---- characters ---- *)
Definition NoNul (s : text) : Prop := Forall (fun c => c <> NUL) s.
Lemma c_str_id s : NoNul s -> c_str s = s.
Proof.
  induction 1 as [|c s Hc HF IH]; auto. cbn [c_str]. destruct (ch_eqb c NUL) eqn:E; [apply ch_eqb_true in E; contradiction|].
  now rewrite IH.
Qed.
Lemma OneLine_app a b : OneLine a -> OneLine b -> OneLine (a ++ b).
Proof. unfold OneLine. intros. apply Forall_app. auto. Qed.
Lemma OneLine_NoNul a : OneLine a -> NoNul a.
Proof. unfold OneLine, NoNul. intros H. eapply Forall_impl; [|exact H]. intros c [A _]. exact A. Qed.
Lemma NoNul_app a b : NoNul a -> NoNul b -> NoNul (a ++ b).
Proof. unfold NoNul. intros. apply Forall_app. auto. Qed.
Definition oneline_b (s : str) : bool := forallb (fun c => negb (ch_eqb c NUL) && negb (ch_eqb c (ascii_of_nat 10))) s.
Lemma oneline_true s : oneline_b s = true -> OneLine s.
Proof.
  unfold oneline_b, OneLine. rewrite forallb_forall, Forall_forall. intros H c Hc. specialize (H c Hc).
  apply andb_true_iff in H. destruct H as [A B]. apply negb_true_iff in A, B.
  split; intros ->; [now rewrite (proj2 (ch_eqb_true _ _) eq_refl) in A|now rewrite (proj2 (ch_eqb_true _ _) eq_refl) in B].
Qed.
Lemma Harmless_oneline s : Forall Harmless s -> OneLine s.
Proof.
  unfold OneLine. intros H. eapply Forall_impl; [|exact H]. intros c (A & B & _).
  split; intros E; subst; [apply A|apply B]; reflexivity.
Qed.
Lemma pad7_split s : exists n, pad7 s = repeat (ascii_of_nat 32) n ++ s /\ n <= 7.
Proof. unfold pad7. eexists. split; [reflexivity|lia]. Qed.

(** ---- words ---- *)
Definition WordChars (w : text) : Prop := w <> [] /\ Forall (fun c => ~ Blank c /\ c <> ascii_of_nat 35) w.
Lemma blank32 : Blank (ascii_of_nat 32). Proof. right; right; left; reflexivity. Qed.
Lemma blank9 : Blank (ascii_of_nat 9). Proof. right; left; reflexivity. Qed.
Lemma blank_hash c : Blank c -> c <> ascii_of_nat 35.
Proof. intros [<-|[<-|[<-|[]]]]; discriminate. Qed.
Definition Rest (rest : text) : Prop := rest = [] \/ exists r, rest = ascii_of_nat 35 :: r.

Lemma tokens_blank g : Forall Blank g -> Tokens Blank g [].
Proof. intros H. now apply Tok_none. Qed.
Lemma tokens_last w g : WordChars w -> Forall Blank g -> Tokens Blank (w ++ g) [w].
Proof.
  intros [Hw HF] Hg. assert (HN : Forall (fun c => ~ Blank c) w) by (eapply Forall_impl; [|exact HF]; cbn; tauto).
  destruct g as [|c g].
  - rewrite app_nil_r. apply (@Tok_last Blank [] w); auto; constructor.
  - inversion Hg; subst. apply (@Tok_more Blank [] w c g []); auto. constructor.
    apply tokens_blank. constructor; auto.
Qed.
Lemma words1 w g rest : WordChars w -> Forall Blank g -> Rest rest -> Words (w ++ g ++ rest) [w].
Proof.
  intros Hw Hg Hr. exists (w ++ g). split.
  - exists rest. split; [now rewrite app_assoc|]. split; [|exact Hr]. apply Forall_app. split.
    + destruct Hw as [_ HF]. eapply Forall_impl; [|exact HF]. cbn. tauto.
    + eapply Forall_impl; [|exact Hg]. intros c. apply blank_hash.
  - now apply tokens_last.
Qed.
Lemma words2 w1 g1 w2 g2 rest : WordChars w1 -> g1 <> [] -> Forall Blank g1 -> WordChars w2 -> Forall Blank g2 -> Rest rest ->
  Words (w1 ++ g1 ++ w2 ++ g2 ++ rest) [w1; w2].
Proof.
  intros H1 Hne Hg1 H2 Hg2 Hr. exists (w1 ++ g1 ++ w2 ++ g2).
  assert (NH : forall w, WordChars w -> Forall (fun c => c <> ascii_of_nat 35) w).
  { intros w [_ HF]. eapply Forall_impl; [|exact HF]. cbn. tauto. }
  assert (NB : forall g, Forall Blank g -> Forall (fun c => c <> ascii_of_nat 35) g).
  { intros g HF. eapply Forall_impl; [|exact HF]. intros c. apply blank_hash. }
  split.
  - exists rest. split; [now rewrite <- !app_assoc|]. split; [|exact Hr].
    repeat (apply Forall_app; split); auto.
  - destruct g1 as [|c g1]; [congruence|]. inversion Hg1; subst.
    destruct H1 as [Hn1 HF1]. assert (HN : Forall (fun c => ~ Blank c) w1) by (eapply Forall_impl; [|exact HF1]; cbn; tauto).
    apply (@Tok_more Blank [] w1 c (g1 ++ w2 ++ g2) [w2]); auto; [constructor|].
    assert (HT := tokens_last H2 Hg2). change (c :: g1 ++ w2 ++ g2) with ((c :: g1) ++ w2 ++ g2).
    destruct H2 as [Hn2 HF2]. assert (HN2 : Forall (fun c => ~ Blank c) w2) by (eapply Forall_impl; [|exact HF2]; cbn; tauto).
    destruct g2 as [|d g2].
    + rewrite app_nil_r. apply (@Tok_last Blank (c :: g1) w2); auto.
    + inversion Hg2; subst. apply (@Tok_more Blank (c :: g1) w2 d g2 []); auto. apply tokens_blank. constructor; auto.
Qed.

(** ---- numerals ---- *)
Definition NumChar (c : ascii) : Prop := In c (list_ascii_of_string "0123456789+-.e").
Lemma digit_char c v : DigitVal c v -> NumChar c.
Proof.
  intros [Hv E]. assert (v = 0 \/ v = 1 \/ v = 2 \/ v = 3 \/ v = 4 \/ v = 5 \/ v = 6 \/ v = 7 \/ v = 8 \/ v = 9)%Z as H by lia.
  assert (c = ascii_of_nat (Z.to_nat (48 + v))) as -> by (rewrite <- E; symmetry; apply ascii_nat_embedding).
  unfold NumChar. cbn [list_ascii_of_string In].
  repeat (destruct H as [->|H]; [cbn; tauto|]). subst. cbn. tauto.
Qed.
Lemma Digits_chars s v : Digits s v -> Forall NumChar s /\ s <> [].
Proof.
  induction 1 as [c v H|s v c w H [IH IH'] Hc].
  - split; [|discriminate]. constructor; [exact (digit_char H)|constructor].
  - split; [|destruct s; discriminate]. apply Forall_app. split; auto. constructor; [exact (digit_char Hc)|constructor].
Qed.
Lemma Decimal_chars s r : Decimal s r -> Forall NumChar s /\ s <> [].
Proof.
  intros (sg & neg & ip & vi & fr & fd & ex & e & v & -> & Hs & Hi & Hf & He & _ & _).
  destruct (Digits_chars Hi) as [Ci Ni].
  assert (Cs : Forall NumChar sg) by (destruct Hs; repeat constructor; unfold NumChar; cbn; tauto).
  assert (Cf : Forall NumChar fr).
  { destruct Hf as [|d w Hd]; [constructor|]. destruct (Digits_chars Hd). constructor; auto. unfold NumChar; cbn; tauto. }
  assert (Ce : Forall NumChar ex).
  { destruct He as [|s' n' d w Hs' Hd]; [constructor|]. destruct (Digits_chars Hd). constructor; [unfold NumChar; cbn; tauto|].
    apply Forall_app. split; auto. destruct Hs'; repeat constructor; unfold NumChar; cbn; tauto. }
  split; [|destruct sg, ip; try discriminate; congruence].
  repeat (apply Forall_app; split); auto.
Qed.
Lemma NumChar_props c : NumChar c -> ~ Blank c /\ c <> ascii_of_nat 35 /\ Harmless c.
Proof.
  unfold NumChar, Harmless. cbn [list_ascii_of_string In]. intros H.
  repeat (destruct H as [<-|H]; [split; [intros [K|[K|[K|[]]]]; discriminate|split; [discriminate|cbn; lia]]|]). destruct H.
Qed.
Lemma Decimal_word s r : Decimal s r -> WordChars s /\ Forall Harmless s.
Proof.
  intros H. destruct (Decimal_chars H) as [C N]. split.
  - split; auto. eapply Forall_impl; [|exact C]. intros c Hc. destruct (NumChar_props Hc) as (A & B & _). auto.
  - eapply Forall_impl; [|exact C]. intros c Hc. apply (NumChar_props Hc).
Qed.

(** ---- tables ---- *)
Definition word_b (w : str) : bool :=
  negb (str_eqb w []) && forallb (fun c => negb (existsb (ch_eqb c) [ascii_of_nat 10; ascii_of_nat 9; ascii_of_nat 32]) && negb (ch_eqb c (ascii_of_nat 35))) w.
Lemma word_true w : word_b w = true -> WordChars w.
Proof.
  unfold word_b, WordChars. intros H. apply andb_true_iff in H. destruct H as [A B]. split.
  - intros ->. discriminate.
  - rewrite forallb_forall in B. apply Forall_forall. intros c Hc. specialize (B c Hc). apply andb_true_iff in B. destruct B as [B1 B2].
    apply negb_true_iff in B1, B2. split.
    + intros K. assert (existsb (ch_eqb c) [ascii_of_nat 10; ascii_of_nat 9; ascii_of_nat 32] = true).
      { apply existsb_exists. exists c. split; auto. now apply ch_eqb_true. }
      congruence.
    + intros ->. rewrite (proj2 (ch_eqb_true _ _) eq_refl) in B2. discriminate.
Qed.
Definition GoodName (w : text) : Prop := WordChars w /\ Clear w /\ OneLine w /\ List.length w <= 50.
Definition name_b (w : str) : bool := word_b w && clearb w && oneline_b w && (List.length w <=? 50).
Lemma name_true w : name_b w = true -> GoodName w.
Proof.
  unfold name_b. intros H. apply andb_true_iff in H. destruct H as [H H4]. apply andb_true_iff in H. destruct H as [H H3].
  apply andb_true_iff in H. destruct H as [H1 H2]. repeat split; try (apply word_true; auto).
  - now apply clearb_true. - now apply oneline_true. - now apply Nat.leb_le.
Qed.
Definition GoodUnits (u : text) : Prop := Clear u /\ OneLine u /\ List.length u <= 50.
Definition units_b (u : str) : bool := clearb u && oneline_b u && (List.length u <=? 50).
Lemma units_true u : units_b u = true -> GoodUnits u.
Proof.
  unfold units_b. intros H. apply andb_true_iff in H. destruct H as [H H3]. apply andb_true_iff in H. destruct H as [H1 H2].
  repeat split; [now apply clearb_true|now apply oneline_true|now apply Nat.leb_le].
Qed.
Definition class_b (c : class) : bool :=
  name_b (c_name c) && forallb name_b (c_params c) && forallb units_b (c_units c) && (List.length (c_units c) =? List.length (c_params c)) &&
  negb (has "LABEL" (lit "FUNCTION " ++ c_name c)) &&
  negb (has "LABEL" ((lit "FUNCTION " ++ c_name c ++ lit "   # ") ++ removelast label_kw)).
Lemma class_facts c : In c classes ->
  GoodName (c_name c) /\ Forall GoodName (c_params c) /\ Forall GoodUnits (c_units c) /\ List.length (c_units c) = List.length (c_params c) /\
  has "LABEL" (lit "FUNCTION " ++ c_name c) = false /\
  has "LABEL" ((lit "FUNCTION " ++ c_name c ++ lit "   # ") ++ removelast label_kw) = false.
Proof.
  assert (H : forallb class_b classes = true) by (vm_compute; reflexivity).
  rewrite forallb_forall in H. intros Hc. specialize (H c Hc). unfold class_b in H.
  apply andb_true_iff in H. destruct H as [H H6]. apply andb_true_iff in H. destruct H as [H H5].
  apply andb_true_iff in H. destruct H as [H H4]. apply andb_true_iff in H. destruct H as [H H3].
  apply andb_true_iff in H. destruct H as [H1 H2]. repeat split.
  - apply name_true in H1. apply H1.
  - apply name_true in H1. apply H1.
  - apply name_true in H1. apply H1.
  - apply name_true in H1. apply H1.
  - apply name_true in H1. apply H1.
  - apply Forall_forall. intros w Hw. rewrite forallb_forall in H2. apply name_true. auto.
  - apply Forall_forall. intros w Hw. rewrite forallb_forall in H3. apply units_true. auto.
  - now apply Nat.eqb_eq.
  - now apply negb_true_iff.
  - now apply negb_true_iff.
Qed.

(** ---- printing a line ---- *)
Definition Pre (pre : text) : Prop := OneLine pre /\ List.length pre <= 50.
Lemma print_short s : List.length s < 1024 -> PrintToString s = Ok s.
Proof. intros H. unfold PrintToString. destruct (Nat.ltb_spec (List.length s) 1024); [reflexivity|lia]. Qed.

(** strings written for the lines [bodies] that say [ds] *)
Definition Lines (pre : text) (ds : list lineL) (ss : list str) : Prop :=
  exists bodies, ss = map (fun b => pre ++ b ++ NL) bodies /\ Forall OneLine bodies /\ FileSaysL ds bodies.

Lemma FileSaysL_app ds1 ls1 ds2 ls2 : FileSaysL ds1 ls1 -> FileSaysL ds2 ls2 -> FileSaysL (ds1 ++ ds2) (ls1 ++ ls2).
Proof. induction 1; cbn [app]; intros; [auto|apply FL_skip; auto|apply FL_line; auto]. Qed.
Lemma Lines_nil pre : Lines pre [] []. Proof. exists []. repeat constructor. Qed.
Lemma Lines_app pre d1 s1 d2 s2 : Lines pre d1 s1 -> Lines pre d2 s2 -> Lines pre (d1 ++ d2) (s1 ++ s2).
Proof.
  intros (b1 & -> & C1 & F1) (b2 & -> & C2 & F2). exists (b1 ++ b2). split; [now rewrite map_app|].
  split; [apply Forall_app; auto|now apply FileSaysL_app].
Qed.
Lemma Lines_one pre d b : OneLine b -> SaysL d b -> Lines pre [d] [pre ++ b ++ NL].
Proof. intros C S. exists [b]. split; [reflexivity|]. split; [repeat constructor; auto|]. apply FL_line; auto. constructor. Qed.
Lemma Lines_skip pre b : OneLine b -> Ignorable b -> Lines pre [] [pre ++ b ++ NL].
Proof. intros C S. exists [b]. split; [reflexivity|]. split; [repeat constructor; auto|]. apply FL_skip; auto. constructor. Qed.

Definition starts_sep (t : text) : Prop := match t with [] => True | c :: _ => Sep c end.
Lemma Clear_tail c t : Clear (c :: t) -> Clear t.
Proof. intros H k Hk (a & b & E). apply (H k Hk). exists (c :: a), b. now rewrite E. Qed.
Lemma Clear_join a t : Clear a -> Clear t -> starts_sep t -> Clear (a ++ t).
Proof.
  intros Ha Ht Hs. destruct t as [|c t]; [now rewrite app_nil_r|]. apply Clear_sep; auto. exact (Clear_tail Ht).
Qed.
Lemma Clear_cons c t : Sep c -> Clear t -> Clear (c :: t).
Proof. intros. apply (@Clear_sep [] t c); auto. apply Clear_nil. Qed.
Lemma Blank_sep c : Blank c -> Sep c.
Proof. intros [<-|[<-|[<-|[]]]]; apply Sep_in; cbn; auto. Qed.
Lemma Clear_blanks g s : Forall Blank g -> Clear s -> Clear (g ++ s).
Proof. induction 1; cbn; auto. intros. apply Clear_cons; auto. now apply Blank_sep. Qed.

(** a line  word  blanks  numeral  blanks  comment *)
Lemma num_line w g1 num r g2 rest : WordChars w -> g1 <> [] -> Forall Blank g1 -> Decimal num r -> Forall Blank g2 -> Rest rest ->
  Clear (g2 ++ rest) ->
  Words (w ++ g1 ++ num ++ g2 ++ rest) [w; num] /\ Clear (g1 ++ num ++ g2 ++ rest) /\ starts_sep (g1 ++ num ++ g2 ++ rest).
Proof.
  intros Hw Hne Hg1 Hd Hg2 Hr HC. destruct (Decimal_word Hd) as [Wn Hn]. split; [|split].
  - now apply words2.
  - apply Clear_blanks; auto. apply Clear_join; auto.
    + now apply Harmless_clear.
    + destruct g2 as [|c g2]; cbn; [|inversion Hg2; subst; now apply Blank_sep].
      destruct Hr as [->|(x & ->)]; cbn; auto. apply Sep_in; cbn; auto.
  - destruct g1 as [|c g1]; [congruence|]. inversion Hg1; subst. cbn. now apply Blank_sep.
Qed.

Lemma kw_X0_3 w t k : w = lit "X0" \/ w = lit "Y0" -> Clear t -> starts_sep t -> In k (tl K4) -> ~ Kw k (w ++ t).
Proof.
  intros Hw Ht Hs Hk K.
  assert (HW : ~ Kw k w).
  { intros Q. apply has_true in Q. destruct Hw as [->| ->]; destruct Hk as [<-|[<-|[<-|[]]]]; vm_compute in Q; discriminate. }
  destruct t as [|c t]; [rewrite app_nil_r in K; auto|].
  assert (Hk' : In k K4) by (right; exact Hk).
  destruct (Kw_sep (Hs k Hk') K) as [Q|Q]; auto. exact (Clear_tail Ht Hk' Q).
Qed.
Lemma kw_Y0_X0 t : Clear t -> starts_sep t -> ~ Kw "X0" (lit "Y0" ++ t).
Proof.
  intros Ht Hs K. assert (Hk : In "X0"%string K4) by (left; reflexivity).
  assert (HW : ~ Kw "X0" (lit "Y0")) by (intros Q; apply has_true in Q; vm_compute in Q; discriminate).
  destruct t as [|c t]; [rewrite app_nil_r in K; auto|].
  destruct (Kw_sep (Hs _ Hk) K) as [Q|Q]; auto. exact (Clear_tail Ht Hk Q).
Qed.
Lemma PosLine_centre w t : w = lit "X0" \/ w = lit "Y0" -> Clear t -> starts_sep t -> PosLine (w ++ t).
Proof. intros Hw Ht Hs. repeat split; apply kw_X0_3; auto; cbn; auto. Qed.
Lemma Clear_PosLine s : Clear s -> PosLine s /\ ~ Kw "X0" s.
Proof. intros H. repeat split; apply H; cbn; auto. Qed.

Lemma X0_word : WordChars (lit "X0"). Proof. apply word_true. reflexivity. Qed.
Lemma Y0_word : WordChars (lit "Y0"). Proof. apply word_true. reflexivity. Qed.
Lemma tabs_blank : Forall Blank (TAB ++ TAB). Proof. repeat (apply Forall_cons; [exact blank9|]). constructor. Qed.
Lemma sp_blank n : Forall Blank (repeat (ascii_of_nat 32) n).
Proof. apply Forall_forall. intros c H. apply repeat_spec in H. subst. exact blank32. Qed.
Lemma OneLine_lit s : oneline_b (lit s) = true -> OneLine (lit s). Proof. apply oneline_true. Qed.
Lemma OneLine_sp n : OneLine (repeat (ascii_of_nat 32) n).
Proof. apply Forall_forall. intros c H. apply repeat_spec in H. subst. split; discriminate. Qed.

Section PrintOK.
  Variable T : Type.
  Variable N : Num T.
  Variable toR : T -> R.
  Variable finite : T -> Prop.
  Variable f4 g g5 : T -> text.
  Hypothesis PF : PrintfOK toR finite f4 g g5.

  Lemma f4_dec v : finite v -> exists r, Decimal (f4 v) r.
  Proof. intros H. destruct (@f4_value _ _ _ _ _ _ PF _ H) as (r & D & _). eauto. Qed.
  Lemma g_dec v : finite v -> exists r, Decimal (g v) r.
  Proof. intros H. destruct (@g_value _ _ _ _ _ _ PF _ H) as (r & D & _). eauto. Qed.

  Lemma err_tail s : Forall Harmless s -> Clear (lit " # +/- " ++ s) /\ OneLine (lit " # +/- " ++ s).
  Proof.
    intros H. assert (HH : Forall Harmless (lit " # +/- " ++ s)).
    { apply Forall_app. split; auto. repeat (apply Forall_cons; [unfold Harmless; cbn; lia|]). constructor. }
    split; [now apply Harmless_clear|now apply Harmless_oneline].
  Qed.

  Definition errs_ok (errs : option (list T)) (k : nat) : Prop := match errs with None => True | Some es => k < List.length es end.
  Definition err_text (t : T -> text) (errs : option (list T)) (k : nat) (s : text) : Prop :=
    match errs with None => s = [] | Some es => exists e, nth_error es k = Some e /\ s = lit " # +/- " ++ t e end.

  Lemma centre_text pre name v k errs : Pre pre -> name = lit "X0" \/ name = lit "Y0" -> finite v -> errs_ok errs k ->
    exists tail, centre_line f4 g pre name v k errs false [] = Ok (pre ++ (name ++ (TAB ++ TAB) ++ f4 v ++ tail) ++ NL) /\
      err_text f4 errs k tail.
  Proof.
    intros [_ HP] Hn Hv He. unfold centre_line.
    assert (L2 : List.length name = 2) by (destruct Hn as [->| ->]; reflexivity).
    assert (Lv := proj2 (@f4_text _ _ _ _ _ _ PF v)).
    destruct errs as [es|].
    - cbn in He. destruct (@get_lt _ es k He) as (e & Ee). rewrite Ee. cbn [bind].
      exists (lit " # +/- " ++ f4 e). split; [|exists e; split; auto; now apply get_Ok_iff].
      assert (Le := proj2 (@f4_text _ _ _ _ _ _ PF e)). unfold xy_line_err.
      rewrite print_short; [f_equal; rewrite <- !app_assoc; reflexivity|].
      rewrite !app_length. cbn [TAB NL List.length lit]. cbn. lia.
    - exists []. split; [|reflexivity]. unfold xy_line.
      rewrite print_short; [f_equal; rewrite app_nil_r, <- !app_assoc; reflexivity|].
      rewrite !app_length. cbn. lia.
  Qed.

  Lemma err_text_ok t errs k s : (forall v, Forall Harmless (t v)) -> err_text t errs k s ->
    exists g2 rest, s = g2 ++ rest /\ Forall Blank g2 /\ Rest rest /\ Clear s /\ OneLine s.
  Proof.
    intros Ht. destruct errs as [es|]; cbn.
    - intros (e & _ & ->). exists (lit " "), (lit "# +/- " ++ t e). split; [reflexivity|]. split; [repeat constructor; exact blank32|].
      split; [right; eexists; reflexivity|]. apply err_tail. apply Ht.
    - intros ->. exists [], []. split; [reflexivity|]. split; [constructor|]. split; [left; reflexivity|].
      split; [apply Clear_nil|constructor].
  Qed.

  Lemma f4_oneline v : OneLine (f4 v). Proof. apply Harmless_oneline. apply (@f4_text _ _ _ _ _ _ PF). Qed.

  Lemma centre_X0 pre v k errs : Pre pre -> finite v -> errs_ok errs k ->
    exists s, centre_line f4 g pre (lit "X0") v k errs false [] = Ok s /\ Lines pre [LPlain (DX0 (f4 v) LNone)] [s].
  Proof.
    intros HP Hv He. destruct (@centre_text pre (lit "X0") v k errs HP (or_introl eq_refl) Hv He) as (tail & E & Ht).
    eexists. split; [exact E|]. destruct (@err_text_ok f4 errs k tail (fun v => proj1 (@f4_text _ _ _ _ _ _ PF v)) Ht) as (g2 & rest & -> & B2 & R & C & O).
    destruct (f4_dec Hv) as (r & D).
    assert (T2 : TAB ++ TAB <> []) by discriminate.
    destruct (@num_line (lit "X0") (TAB ++ TAB) (f4 v) r g2 rest X0_word T2 tabs_blank D B2 R C) as (W & Cl & SS).
    apply Lines_one.
    - apply OneLine_app; [apply OneLine_lit; reflexivity|]. apply OneLine_app; [apply oneline_true; reflexivity|].
      apply OneLine_app; [apply f4_oneline|exact O].
    - split; [exact W|]. apply PosLine_centre; auto.
  Qed.
  Lemma centre_Y0 pre v k errs : Pre pre -> finite v -> errs_ok errs k ->
    exists s, centre_line f4 g pre (lit "Y0") v k errs false [] = Ok s /\ Lines pre [LPlain (DY0 (f4 v) LNone)] [s].
  Proof.
    intros HP Hv He. destruct (@centre_text pre (lit "Y0") v k errs HP (or_intror eq_refl) Hv He) as (tail & E & Ht).
    eexists. split; [exact E|]. destruct (@err_text_ok f4 errs k tail (fun v => proj1 (@f4_text _ _ _ _ _ _ PF v)) Ht) as (g2 & rest & -> & B2 & R & C & O).
    destruct (f4_dec Hv) as (r & D).
    assert (T2 : TAB ++ TAB <> []) by discriminate.
    destruct (@num_line (lit "Y0") (TAB ++ TAB) (f4 v) r g2 rest Y0_word T2 tabs_blank D B2 R C) as (W & Cl & SS).
    apply Lines_one.
    - apply OneLine_app; [apply OneLine_lit; reflexivity|]. apply OneLine_app; [apply oneline_true; reflexivity|].
      apply OneLine_app; [apply f4_oneline|exact O].
    - split; [exact W|]. split; [apply PosLine_centre; auto|apply kw_Y0_X0; auto].
  Qed.

  (** ---- a parameter ---- *)
  Lemma g_oneline v : finite v -> OneLine (g v).
  Proof. intros H. destruct (g_dec H) as (r & D). apply Harmless_oneline. apply (Decimal_word D). Qed.

  Lemma param_ok m o pre i k v errs name u : Pre pre -> GoodName name -> GoodUnits u ->
    GetParameterName m k = Ok name -> nth_error (c_units (fo_class o)) i = Some u -> finite v -> errs_ok errs k ->
    exists s, param_line g g5 m o pre i k v errs false [] = Ok s /\ Lines pre [LPlain (DPar (mkParam name (g v) LNone))] [s].
  Proof.
    intros [HP1 HP2] (Wn & Cn & On & Ln) (Cu & Ou & Lu) En Eu Hv He. unfold param_line. rewrite En. cbn [bind].
    rewrite (proj2 (get_Ok_iff _ _ _) Eu). rewrite (c_str_id (OneLine_NoNul On)).
    destruct (g_dec Hv) as (r & D). destruct (pad7_split (g v)) as (n & Ep & Hn).
    assert (Lg := @g_text _ _ _ _ _ _ PF v).
    assert (Main : forall tail ust, (ust = [] \/ ust = TAB ++ lit "# ") -> (exists g2 rest, tail = g2 ++ rest /\ Forall Blank g2 /\ Rest rest /\ Clear tail /\ OneLine tail /\ (ust = [] -> rest <> [])) ->
       (tail = [] \/ ust = []) ->
       exists s, match u with [] => Ok ((pre ++ name ++ TAB ++ TAB ++ pad7 (g v) ++ tail) ++ NL)
                 | _ :: _ => do extraString <- PrintToString (TAB ++ c_str ust ++ c_str u);
                             Ok (((pre ++ name ++ TAB ++ TAB ++ pad7 (g v) ++ tail) ++ extraString) ++ NL) end = Ok s /\
         Lines pre [LPlain (DPar (mkParam name (g v) LNone))] [s]).
    { intros tail ust Hust (g2 & rest & Et & B2 & R & C & O & HR) HTU.
      assert (Gen : forall ext, Clear ext -> OneLine ext -> starts_sep ext -> (exists g3 r3, tail ++ ext = g3 ++ r3 /\ Forall Blank g3 /\ Rest r3) ->
         Lines pre [LPlain (DPar (mkParam name (g v) LNone))] [((pre ++ name ++ TAB ++ TAB ++ pad7 (g v) ++ tail) ++ ext) ++ NL]).
      { intros ext Ce Oe Se (g3 & r3 & E3 & B3 & R3).
        assert (Ct : Clear (g3 ++ r3)) by (rewrite <- E3; apply Clear_join; auto).
        assert (T2 : (TAB ++ TAB) ++ repeat (ascii_of_nat 32) n <> []) by discriminate.
        assert (TB : Forall Blank ((TAB ++ TAB) ++ repeat (ascii_of_nat 32) n)) by (apply Forall_app; split; [exact tabs_blank|apply sp_blank]).
        destruct (@num_line name ((TAB ++ TAB) ++ repeat (ascii_of_nat 32) n) (g v) r g3 r3 Wn T2 TB D B3 R3 Ct) as (W & Cl & SS).
        assert (EB : ((pre ++ name ++ TAB ++ TAB ++ pad7 (g v) ++ tail) ++ ext) ++ NL =
                     pre ++ (name ++ ((TAB ++ TAB) ++ repeat (ascii_of_nat 32) n) ++ g v ++ g3 ++ r3) ++ NL).
        { rewrite <- E3, Ep. rewrite <- !app_assoc. reflexivity. }
        rewrite EB. apply Lines_one.
        - rewrite <- E3. apply OneLine_app; [exact On|]. apply OneLine_app; [apply OneLine_app; [apply oneline_true; reflexivity|apply OneLine_sp]|].
          apply OneLine_app; [now apply g_oneline|]. apply OneLine_app; auto.
        - split; [exact W|]. apply Clear_PosLine. apply Clear_join; auto. }
      destruct u as [|u0 u].
      - eexists. split; [reflexivity|]. specialize (Gen [] Clear_nil (Forall_nil _) I).
        rewrite !app_nil_r in Gen. apply Gen. exists g2, rest. auto.
      - rewrite (c_str_id (s := u0 :: u)) by (apply OneLine_NoNul; auto).
        assert (Eust : c_str ust = ust) by (destruct Hust as [->| ->]; reflexivity). rewrite Eust.
        rewrite print_short.
        2:{ rewrite !app_length. destruct Hust as [->| ->]; cbn in *; lia. }
        cbn [bind]. eexists. split; [reflexivity|]. apply Gen.
        + destruct Hust as [->| ->]; cbn [app TAB lit list_ascii_of_string]; repeat (apply Clear_cons; [apply Sep_in; cbn; tauto|]); exact Cu.
        + apply OneLine_app; [apply oneline_true; reflexivity|]. apply OneLine_app; auto. destruct Hust as [->| ->]; apply oneline_true; reflexivity.
        + apply Sep_in; cbn; tauto.
        + destruct Hust as [->| ->].
          * exists g2, (rest ++ TAB ++ [] ++ u0 :: u). rewrite Et, <- app_assoc. split; auto. split; auto.
            destruct R as [->|(x & ->)]; [exfalso; apply HR; auto|]. right. eexists. reflexivity.
          * destruct HTU as [->|]; [|discriminate]. exists (TAB ++ TAB), (lit "# " ++ u0 :: u). split; [reflexivity|].
            split; [exact tabs_blank|]. right. eexists. reflexivity. }
    destruct errs as [es|].
    - cbn in He. destruct (@get_lt _ es k He) as (e & Ee). rewrite Ee. cbn [bind].
      assert (Le := proj2 (@g5_text _ _ _ _ _ _ PF e)). unfold par_text_err. rewrite print_short.
      2:{ rewrite Ep, !app_length, repeat_length. cbn. lia. }
      cbn [bind]. destruct (Main (lit " # +/- " ++ g5 e) [] (or_introl eq_refl)) as (s & E & L); auto.
      { destruct (err_tail (proj1 (@g5_text _ _ _ _ _ _ PF e))). exists (lit " "), (lit "# +/- " ++ g5 e).
        split; [reflexivity|]. split; [repeat constructor; exact blank32|]. split; [right; eexists; reflexivity|].
        split; auto. split; auto. intros _. discriminate. }
      exists s. split; auto.
    - unfold par_text. rewrite print_short.
      2:{ rewrite Ep, !app_length, repeat_length. cbn. lia. }
      cbn [bind]. destruct (Main [] (TAB ++ lit "# ") (or_intror eq_refl)) as (s & E & L); auto.
      { exists [], []. split; [reflexivity|]. split; [constructor|]. split; [left; reflexivity|]. split; [apply Clear_nil|]. split; [constructor|discriminate]. }
      exists s. rewrite app_nil_r in E. split; auto.
  Qed.
End PrintOK.

(** ---- the FUNCTION line ---- *)
Lemma FUNCTION_word : WordChars (lit "FUNCTION"). Proof. apply word_true. reflexivity. Qed.
Lemma X0_sep c a b : Sep c -> ~ Kw "X0" a -> ~ Kw "X0" b -> ~ Kw "X0" (a ++ c :: b).
Proof. intros Hc Ha Hb K. assert (Hk : In "X0"%string K4) by (left; reflexivity). destruct (Kw_sep (Hc _ Hk) K); auto. Qed.
Ltac noX0 := intros ?Q; apply has_true in Q; vm_compute in Q; discriminate Q.

Definition fun_body (name lab : text) : text :=
  lit "FUNCTION " ++ name ++ (match lab with [] => [] | _ :: _ => lit "   # LABEL " ++ lab end).

Lemma fun_says c lab : In c classes -> GoodLabel lab -> SaysL (LFun (c_name c) lab) (fun_body (c_name c) lab) /\ OneLine (fun_body (c_name c) lab).
Proof.
  intros Hc HL. destruct (class_facts Hc) as ((Wn & Cn & On & Ln) & _ & _ & _ & L1 & L2).
  assert (NX : ~ Kw "X0" (lit "FUNCTION " ++ c_name c)).
  { change (lit "FUNCTION " ++ c_name c) with (lit "FUNCTION" ++ ascii_of_nat 32 :: c_name c).
    apply X0_sep; [apply Sep_in; cbn; tauto|noX0|]. apply Cn. left. reflexivity. }
  unfold fun_body. destruct HL as [->|(HT & Hlen & HF & HX)].
  - split.
    + split; [|split].
      * exact (@words2 (lit "FUNCTION") (lit " ") (c_name c) [] [] FUNCTION_word ltac:(discriminate) ltac:(repeat constructor; exact blank32) Wn ltac:(constructor) (or_introl eq_refl)).
      * rewrite app_nil_r. exact NX.
      * left. split; auto. rewrite app_nil_r. intros K. apply has_true in K. congruence.
    + apply OneLine_app; [apply OneLine_lit; reflexivity|]. apply OneLine_app; auto. constructor.
  - destruct lab as [|l0 lab]; [cbn in Hlen; lia|]. set (L := l0 :: lab) in *. split.
    + split; [|split].
      * exact (@words2 (lit "FUNCTION") (lit " ") (c_name c) (lit "   ") (lit "# LABEL " ++ L) FUNCTION_word ltac:(discriminate)
          ltac:(repeat (apply Forall_cons; [exact blank32|]); constructor) Wn ltac:(repeat (apply Forall_cons; [exact blank32|]); constructor) ltac:(right; eexists; reflexivity)).
      * replace (lit "FUNCTION " ++ c_name c ++ lit "   # LABEL " ++ L)
          with ((lit "FUNCTION " ++ c_name c) ++ ascii_of_nat 32 :: (lit "  # LABEL" ++ ascii_of_nat 32 :: L))
          by (rewrite <- !app_assoc; reflexivity).
        apply X0_sep; [apply Sep_in; cbn; tauto|exact NX|].
        apply X0_sep; [apply Sep_in; cbn; tauto|noX0|exact HX].
      * right. exists (lit "FUNCTION " ++ c_name c ++ lit "   # "), (lit " " ++ L).
        assert (E : lit "FUNCTION " ++ c_name c ++ lit "   # LABEL " ++ L = (lit "FUNCTION " ++ c_name c ++ lit "   # ") ++ label_kw ++ lit " " ++ L)
          by (rewrite <- !app_assoc; reflexivity).
        split; [exact E|]. split; [|split].
        -- intros a' b' E'. rewrite E in E'. exact (label_first L2 E').
        -- destruct HT as (g & h & E1 & _ & _ & HS). exists (lit " "), []. rewrite app_nil_r. split; [reflexivity|].
           split; [repeat (apply Forall_cons; [exact blank32|]); constructor|]. split; [constructor|exact HS].
        -- lia.
    + repeat apply OneLine_app; auto; apply OneLine_lit; reflexivity.
Qed.

Lemma GoodWord_chars w : GoodWord w -> WordChars w /\ OneLine w /\ Clear w /\ List.length w <= 400.
Proof.
  intros (H1 & H2 & H3 & (P1 & P2 & P3) & H5). repeat split; auto.
  - eapply Forall_impl; [|exact H3]. cbn. intros c (A & _ & C). auto.
  - eapply Forall_impl; [|exact H3]. cbn. intros c (A & B & C). split; [exact B|intros ->; apply A; left; reflexivity].
  - intros k [<-|[<-|[<-|[<-|[]]]]]; auto.
Qed.

Lemma opt_says k v : GoodWord k -> GoodWord v -> let b := k ++ lit "   " ++ v in SaysL (LOpt k v) b /\ OneLine b /\ List.length b <= 803.
Proof.
  intros Hk Hv b. destruct (GoodWord_chars Hk) as (Wk & Ok_ & Ck & Lk). destruct (GoodWord_chars Hv) as (Wv & Ov & Cv & Lv).
  assert (SB : Forall Blank (lit "   ")) by (repeat (apply Forall_cons; [exact blank32|]); constructor).
  split; [|split].
  - split.
    + pose proof (@words2 k (lit "   ") v [] [] Wk ltac:(discriminate) SB Wv ltac:(constructor) (or_introl eq_refl)) as W.
      rewrite !app_nil_r in W. exact W.
    + apply Clear_PosLine. apply Clear_join; auto; [|apply Sep_in; cbn; tauto]. apply Clear_blanks; auto.
  - repeat apply OneLine_app; auto. apply OneLine_lit; reflexivity.
  - unfold b. rewrite !app_length. cbn. lia.
Qed.

Lemma extra_lines_ok m : Forall (fun kv => GoodWord (fst kv) /\ GoodWord (snd kv)) m ->
  exists ls, extra_lines m = Ok ls /\ Forall (fun l => OneLine l /\ List.length l <= 803) ls /\ FileSaysL (map (fun kv => LOpt (fst kv) (snd kv)) m) ls.
Proof.
  induction 1 as [|[k v] m [Hk Hv] HF IH].
  - exists []. repeat constructor.
  - destruct IH as (ls & E & C & F). cbn [extra_lines fst snd] in *.
    destruct (GoodWord_chars Hk) as (_ & Ok_ & _). destruct (GoodWord_chars Hv) as (_ & Ov & _).
    rewrite (c_str_id (OneLine_NoNul Ok_)), (c_str_id (OneLine_NoNul Ov)).
    destruct (opt_says Hk Hv) as (S & O & L).
    rewrite print_short by lia. cbn [bind]. rewrite E. cbn [bind]. eexists. split; [reflexivity|].
    split; [constructor; auto|]. cbn [map fst snd]. apply FL_line; auto.
Qed.

Lemma Start_says : SaysL LStart (lit "OPTIONAL_PARAMS_START").
Proof.
  split; [|split; noX0].
  pose proof (@words1 (lit "OPTIONAL_PARAMS_START") [] [] (word_true (w := lit "OPTIONAL_PARAMS_START") eq_refl) ltac:(constructor) (or_introl eq_refl)) as W.
  rewrite !app_nil_r in W. exact W.
Qed.
Lemma End_says : SaysL LEnd (lit "OPTIONAL_PARAMS_END").
Proof.
  split; [|repeat split; noX0].
  pose proof (@words1 (lit "OPTIONAL_PARAMS_END") [] [] (word_true (w := lit "OPTIONAL_PARAMS_END") eq_refl) ltac:(constructor) (or_introl eq_refl)) as W.
  rewrite !app_nil_r in W. exact W.
Qed.

Lemma extra_descr o : (forall m, fo_extra o = Some m -> Forall (fun kv => GoodWord (fst kv) /\ GoodWord (snd kv)) m) ->
  exists ls, GetExtraParamsDescription o = Ok ls /\ Forall (fun l => OneLine l /\ List.length l <= 803) ls /\
    FileSaysL (opts_lines (match fo_extra o with None => None | Some m => Some (in_order m) end)) ls.
Proof.
  intros H. unfold GetExtraParamsDescription. destruct (fo_extra o) as [m|].
  - destruct (@extra_lines_ok (in_order m)) as (ls & E & C & F).
    { apply Forall_forall. intros kv Hkv. specialize (H m eq_refl). rewrite Forall_forall in H. apply H. now apply in_order_in. }
    rewrite E. cbn [bind]. eexists. split; [reflexivity|]. split.
    + constructor; [split; [apply OneLine_lit; reflexivity|cbn; lia]|]. apply Forall_app. split; auto.
      constructor; [split; [apply OneLine_lit; reflexivity|cbn; lia]|constructor].
    + cbn [opts_lines]. apply FL_line; [exact Start_says|]. apply FileSaysL_app; auto. apply FL_line; [exact End_says|constructor].
  - exists []. repeat constructor.
Qed.

Lemma fold_lines pre ls : Pre pre -> Forall (fun l => OneLine l /\ List.length l <= 803) ls -> forall out,
  foldM (fun l out => do s <- PrintToString (pre ++ c_str l ++ NL); Ok (out ++ [s])) ls out = Ok (out ++ map (fun b => pre ++ b ++ NL) ls).
Proof.
  intros [HP1 HP2]. induction 1 as [|l ls [O L] HF IH]; intros out; cbn [foldM map].
  - now rewrite app_nil_r.
  - rewrite (c_str_id (OneLine_NoNul O)). rewrite print_short by (rewrite !app_length; cbn; lia). cbn [bind].
    rewrite IH, <- app_assoc. reflexivity.
Qed.

Lemma print_function_ok o pre out : Pre pre -> In (fo_class o) classes -> GoodLabel (fo_label o) ->
  (forall m, fo_extra o = Some m -> Forall (fun kv => GoodWord (fst kv) /\ GoodWord (snd kv)) m) ->
  exists ss, print_function o pre out = Ok (out ++ ss) /\
    Lines pre (LFun (c_name (fo_class o)) (fo_label o) :: opts_lines (match fo_extra o with None => None | Some m => Some (in_order m) end)) ss.
Proof.
  intros HP Hc HL HX. assert (HP' := HP). destruct HP' as [HP1 HP2].
  destruct (class_facts Hc) as ((Wn & Cn & On & Ln) & _).
  destruct (fun_says Hc HL) as [S O].
  destruct (extra_descr HX) as (ls & E & C & F).
  unfold print_function. rewrite E. rewrite (c_str_id (OneLine_NoNul On)).
  assert (EL : (match fo_label o with [] => Ok [] | _ :: _ => PrintToString (lit "   # LABEL " ++ c_str (fo_label o)) end) =
    Ok (match fo_label o with [] => [] | _ :: _ => lit "   # LABEL " ++ fo_label o end) /\
    NoNul (match fo_label o with [] => [] | _ :: _ => lit "   # LABEL " ++ fo_label o end) /\
    List.length (match fo_label o with [] => [] | _ :: _ => lit "   # LABEL " ++ fo_label o end) <= 911).
  { destruct HL as [->|(HT & Hlen & HF & HN)]; [repeat split; [constructor|cbn; lia]|].
    destruct (fo_label o) as [|l0 lab] eqn:El; [cbn in Hlen; lia|]. rewrite <- El in *.
    rewrite (c_str_id (OneLine_NoNul HF)). rewrite print_short by (rewrite app_length; cbn; lia).
    split; [reflexivity|]. split; [|rewrite app_length; cbn; lia].
    apply NoNul_app; [apply OneLine_NoNul, OneLine_lit; reflexivity|now apply OneLine_NoNul]. }
  destruct EL as (EL & NN & LL). rewrite EL. cbn [bind]. rewrite (c_str_id NN).
  rewrite print_short.
  2:{ rewrite !app_length in *. cbn in *. lia. }
  cbn [bind]. rewrite (@loop_list _ _ (fun l out => do s <- PrintToString (pre ++ c_str l ++ NL); Ok (out ++ [s])) ls).
  rewrite (fold_lines HP C). eexists. split; [rewrite <- app_assoc; reflexivity|].
  change (LFun (c_name (fo_class o)) (fo_label o) :: opts_lines (match fo_extra o with None => None | Some m => Some (in_order m) end))
    with ([LFun (c_name (fo_class o)) (fo_label o)] ++ opts_lines (match fo_extra o with None => None | Some m => Some (in_order m) end)).
  apply Lines_app.
  - replace (pre ++ lit "FUNCTION " ++ c_name (fo_class o) ++ (match fo_label o with [] => [] | _ :: _ => lit "   # LABEL " ++ fo_label o end) ++ NL)
      with (pre ++ fun_body (c_name (fo_class o)) (fo_label o) ++ NL) by (unfold fun_body; rewrite <- !app_assoc; reflexivity).
    now apply Lines_one.
  - exists ls. split; [reflexivity|]. split; [|exact F]. eapply Forall_impl; [|exact C]. cbn. tauto.
Qed.

Arguments names_of {T}. Arguments MadeBy {T}. Arguments extra_of {T}.
Section Whole.
  Variable T : Type.
  Variable N : Num T.
  Variable toR : T -> R.
  Variable finite : T -> Prop.
  Variable f4 g g5 : T -> text.
  Hypothesis PF : PrintfOK toR finite f4 g g5.
  Variable pre : text.
  Hypothesis HPre : Pre pre.

  Definition par_lines (names : list text) (vals : list T) : list param_ :=
    map (fun p => mkParam (fst p) (g (snd p)) LNone) (combine names vals).

  Lemma Lines_snoc_all ds1 s1 ds2 s2 : Lines pre ds1 s1 -> Lines pre ds2 s2 -> Lines pre (ds1 ++ ds2) (s1 ++ s2).
  Proof. apply Lines_app. Qed.

  Lemma print_params_ok m o (errs : option (list T)) params names vals npre npost ppre ppost out :
    In (fo_class o) classes -> c_params (fo_class o) = names -> List.length vals = List.length names ->
    b_labels m = npre ++ names ++ npost -> b_nParamsTot m = List.length (b_labels m) ->
    params = ppre ++ vals ++ ppost -> List.length npre = List.length ppre ->
    (match errs with None => True | Some es => List.length params <= List.length es end) ->
    Forall finite vals ->
    exists ss, print_params g g5 m o pre params errs false [] (List.length ppre) out = Ok (out ++ ss) /\
      Lines pre (map (fun p => LPlain (DPar p)) (par_lines names vals)) ss.
  Proof.
    intros Hc Hn HL Eb En Ep Hl He HF. unfold print_params, for_, GetParameterNames. rewrite Hn, <- HL.
    destruct (class_facts Hc) as (_ & GN & GU & LU & _). rewrite Hn in GN, LU.
    enough (G : forall v2 v1 n1 n2 o2, vals = v1 ++ v2 -> names = n1 ++ n2 -> List.length n1 = List.length v1 ->
      exists ss, for_from (List.length v1) (List.length v2) (fun i out =>
         do paramVal <- get params (List.length ppre + i);
         do l <- param_line g g5 m o pre i (List.length ppre + i) paramVal errs false [];
         Ok (out ++ [l])) o2 = Ok (o2 ++ ss) /\ Lines pre (map (fun p => LPlain (DPar p)) (par_lines n2 v2)) ss).
    { exact (G vals [] [] names out eq_refl eq_refl eq_refl). }
    induction v2 as [|v v2 IH]; intros v1 n1 n2 o2 E1 E2 E3.
    - exists []. cbn. rewrite app_nil_r. split; auto. unfold par_lines.
      destruct n2 as [|n n2]; cbn; apply Lines_nil.
    - destruct n2 as [|n n2].
      { exfalso. rewrite E1, E2, !app_length in HL. cbn in HL. lia. }
      cbn [List.length for_from].
      assert (Gp : get params (List.length ppre + List.length v1) = Ok v).
      { rewrite Ep, E1. replace (ppre ++ (v1 ++ v :: v2) ++ ppost) with ((ppre ++ v1) ++ v :: (v2 ++ ppost)) by (rewrite <- !app_assoc; reflexivity).
        apply get_app_eq. now rewrite app_length. }
      rewrite Gp. cbn [bind].
      assert (Gn : GetParameterName m (List.length ppre + List.length v1) = Ok n).
      { unfold GetParameterName. rewrite En, Eb, E2.
        replace (npre ++ (n1 ++ n :: n2) ++ npost) with ((npre ++ n1) ++ n :: (n2 ++ npost)) by (rewrite <- !app_assoc; reflexivity).
        destruct (Nat.ltb_spec (List.length ppre + List.length v1) (List.length ((npre ++ n1) ++ n :: n2 ++ npost))) as [H|H].
        - apply get_app_eq. rewrite app_length. lia.
        - rewrite !app_length in H. cbn in H. lia. }
      assert (Hu : exists u, nth_error (c_units (fo_class o)) (List.length v1) = Some u).
      { destruct (nth_error (c_units (fo_class o)) (List.length v1)) as [u|] eqn:Eu; eauto.
        apply nth_error_None in Eu. rewrite LU, E2, app_length in Eu. cbn in Eu. lia. }
      destruct Hu as (u & Eu).
      assert (GU1 : GoodUnits u) by (rewrite Forall_forall in GU; apply GU; eapply nth_error_In; exact Eu).
      assert (GN1 : GoodName n) by (rewrite Forall_forall in GN; apply GN; rewrite E2; apply in_or_app; right; left; reflexivity).
      assert (Fv : finite v) by (rewrite Forall_forall in HF; apply HF; rewrite E1; apply in_or_app; right; left; reflexivity).
      assert (Hel : errs_ok errs (List.length ppre + List.length v1)).
      { unfold errs_ok. destruct errs as [es|]; auto. rewrite Ep, E1, !app_length in He. cbn in He. lia. }
      destruct (param_ok PF HPre GN1 GU1 Gn Eu Fv Hel) as (s & Es & Ls). rewrite Es. cbn [bind].
      destruct (IH (v1 ++ [v]) (n1 ++ [n]) n2 (o2 ++ [s])) as (ss & E & L).
      { now rewrite <- app_assoc. } { now rewrite <- app_assoc. } { rewrite !app_length. cbn. lia. }
      rewrite app_length, Nat.add_1_r in E. rewrite E. exists (s :: ss). split; [now rewrite <- app_assoc|].
      cbn [par_lines combine map]. exact (Lines_app Ls L).
  Qed.

  (** the description of what is written *)
  Definition desc_f (f : sfunc T) : funcL :=
    mkFuncL (s_name f) (s_label f) (match extra_of f with None => None | Some m => Some (in_order m) end) (par_lines (names_of f) (s_vals f)).
  Definition desc_b (offX offY : T) (b : sblock T) : blockL :=
    mkBlockL (f4 (nadd N (s_x b) offX), LNone) (f4 (nadd N (s_y b) offY), LNone) (map desc_f (s_funcs b)).

  Definition GoodFunc (f : sfunc T) : Prop := Sized f /\ GoodLabel (s_label f) /\ GoodOpts (s_opts f).

  (** one pass of the loop *)
  Definition pm_body (m : built) (offX offY : T) (params : list T) (errs : option (list T)) (p : bool * fobj) (st : nat * list str) : res (nat * list str) :=
    let '(indexOffset, out) := st in
    do c <- (if fst p then
        do px <- get params indexOffset;
        do py <- get params (indexOffset + 1);
        do blank <- PrintToString (pre ++ NL);
        do lx <- centre_line f4 g pre (lit "X0") (nadd N px offX) indexOffset errs false [];
        do ly <- centre_line f4 g pre (lit "Y0") (nadd N py offY) (indexOffset + 1) errs false [];
        Ok (indexOffset + 2, out ++ [blank; lx; ly])
      else Ok (indexOffset, out));
    let '(indexOffset, out) := c in
    do out <- print_function (snd p) pre out;
    do out <- print_params g g5 m (snd p) pre params errs false [] indexOffset out;
    Ok (indexOffset + List.length (GetParameterNames (snd p)), out).

  Lemma extra_good f m : GoodFunc f -> extra_of f = Some m -> Forall (fun kv => GoodWord (fst kv) /\ GoodWord (snd kv)) m.
  Proof.
    intros (_ & _ & _ & HO) E. unfold extra_of in E. destruct (in_order (s_opts f)) as [|[k v] t]; [discriminate|].
    destruct (str_eqb k (lit "method")); [|discriminate].
    destruct (str_eqb (s_name f) PS); [inversion E; subst; exact HO|].
    destruct (str_eqb (s_name f) PSR); [inversion E; subst; constructor|discriminate].
  Qed.

  (** function and parameters *)
  Lemma func_ok m o f (errs : option (list T)) params npre npost ppre ppost out :
    MadeBy o f -> GoodFunc f -> Forall finite (s_vals f) ->
    b_labels m = npre ++ names_of f ++ npost -> b_nParamsTot m = List.length (b_labels m) ->
    params = ppre ++ s_vals f ++ ppost -> List.length npre = List.length ppre ->
    (match errs with None => True | Some es => List.length params <= List.length es end) ->
    exists ss, (do out <- print_function o pre out;
       do out <- print_params g g5 m o pre params errs false [] (List.length ppre) out;
       Ok (List.length ppre + List.length (GetParameterNames o), out)) = Ok (List.length (ppre ++ s_vals f), out ++ ss) /\
      Lines pre (func_linesL (desc_f f)) ss.
  Proof.
    intros HM HG HF Eb En Ep Hl He. destruct (MadeBy_props HM) as (MF & HX & _). assert (MF' := MF). destruct MF' as [[Hc Hn] Hlab _].
    assert (GL : GoodLabel (fo_label o)) by (rewrite Hlab; apply HG).
    destruct (@print_function_ok o pre out HPre Hc GL) as (s1 & E1 & L1).
    { intros x Hx. rewrite HX in Hx. exact (extra_good HG Hx). }
    assert (En' : c_params (fo_class o) = names_of f) by (symmetry; now apply names_of_class).
    assert (HL : List.length (s_vals f) = List.length (names_of f)).
    { destruct HG as ((c & Hc1 & Hc2 & Hc3) & _). rewrite (names_of_class Hc1 Hc2). exact Hc3. }
    rewrite E1. cbn [bind].
    destruct (@print_params_ok m o errs params (names_of f) (s_vals f) npre npost ppre ppost (out ++ s1) Hc En' HL Eb En Ep Hl He HF) as (s2 & E2 & L2).
    rewrite E2. cbn [bind]. exists (s1 ++ s2). split.
    - f_equal. f_equal; [|now rewrite app_assoc]. rewrite app_length, HL. unfold GetParameterNames. now rewrite En'.
    - unfold func_linesL. cbn [desc_f fl_name fl_label fl_opts fl_params]. rewrite Hn, Hlab, HX in L1.
      exact (Lines_app L1 L2).
  Qed.

  Definition FiniteBlock (offX offY : T) (b : sblock T) : Prop :=
    finite (nadd N (s_x b) offX) /\ finite (nadd N (s_y b) offY) /\ Forall (fun f => Forall finite (s_vals f)) (s_funcs b).

  Lemma funcs_ok m offX offY (errs : option (list T)) params fs : forall os npre npost ppre ppost out,
    Forall2 (@MadeBy T) os fs -> Forall GoodFunc fs -> Forall (fun f => Forall finite (s_vals f)) fs ->
    b_labels m = npre ++ flat_map names_of fs ++ npost -> b_nParamsTot m = List.length (b_labels m) ->
    params = ppre ++ flat_map s_vals fs ++ ppost -> List.length npre = List.length ppre ->
    (match errs with None => True | Some es => List.length params <= List.length es end) ->
    exists ss, foldM (pm_body m offX offY params errs) (combine (repeat false (List.length fs)) os) (List.length ppre, out)
        = Ok (List.length (ppre ++ flat_map s_vals fs), out ++ ss) /\
      Lines pre (flat_map func_linesL (map desc_f fs)) ss.
  Proof.
    induction fs as [|f fs IH]; intros os npre npost ppre ppost out H2 HG HF Eb En Ep Hl He; inversion H2 as [|o ? os' ? HM H2']; subst os.
    - exists []. cbn. rewrite !app_nil_r. split; auto. apply Lines_nil.
    - inversion HG as [|? ? G1 G2]; subst x l. inversion HF as [|? ? F1 F2]; subst x l.
      cbn [List.length repeat combine foldM flat_map map] in *.
      unfold pm_body at 1. cbn [fst snd bind].
      rewrite <- app_assoc in Eb, Ep.
      destruct (@func_ok m o f errs params npre (flat_map names_of fs ++ npost) ppre (flat_map s_vals fs ++ ppost) out HM G1 F1 Eb En Ep Hl He)
        as (s1 & E1 & L1).
      rewrite E1. cbn [bind].
      assert (HL : List.length (s_vals f) = List.length (names_of f)).
      { destruct G1 as ((c & Hc1 & Hc2 & Hc3) & _). rewrite (names_of_class Hc1 Hc2). exact Hc3. }
      destruct (IH os' (npre ++ names_of f) npost (ppre ++ s_vals f) ppost (out ++ s1)) as (s2 & E2 & L2); auto.
      { now rewrite <- app_assoc. } { now rewrite <- app_assoc. } { rewrite !app_length. lia. }
      rewrite E2. exists (s1 ++ s2). split; [now rewrite <- !app_assoc|]. exact (Lines_app L1 L2).
  Qed.

  Lemma sflat_cons (b : sblock T) bs : sflat (b :: bs) = s_x b :: s_y b :: flat_map s_vals (s_funcs b) ++ sflat bs.
  Proof. unfold sflat, flat. cbn [map flat_map as_blk b_x b_y Params_Spec.b_funcs app]. rewrite (flat_map_concat_map s_vals (s_funcs b)). reflexivity. Qed.
  Lemma param_names_cons (b : sblock T) bs : param_names (b :: bs) = lit "X0" :: lit "Y0" :: flat_map names_of (s_funcs b) ++ param_names bs.
  Proof. reflexivity. Qed.

  Lemma blocks_print m offX offY (errs : option (list T)) params bs : Forall (fun b => s_funcs b <> []) bs ->
    forall os npre ppre out,
    Forall2 (@MadeBy T) os (sall bs) -> Forall GoodFunc (sall bs) -> Forall (FiniteBlock offX offY) bs ->
    b_labels m = npre ++ param_names bs -> b_nParamsTot m = List.length (b_labels m) ->
    params = ppre ++ sflat bs -> List.length npre = List.length ppre ->
    (match errs with None => True | Some es => List.length params <= List.length es end) ->
    exists ss, foldM (pm_body m offX offY params errs) (combine (flag_list (map as_blk bs)) os) (List.length ppre, out)
        = Ok (List.length params, out ++ ss) /\
      Lines pre (flat_map block_linesL (map (desc_b offX offY) bs)) ss.
  Proof.
    induction 1 as [|b bs Hb HFb IH]; intros os npre ppre out H2 HG HF Eb En Ep Hl He.
    - inversion H2; subst. exists []. cbn. rewrite !app_nil_r. split; auto. apply Lines_nil.
    - unfold sall in H2, HG. cbn [flat_map] in H2, HG. fold (sall bs) in H2, HG.
      apply Forall2_app_inv_r in H2. destruct H2 as (o1 & o2 & H1 & H2 & ->). apply Forall_app in HG. destruct HG as [HG1 HG2].
      inversion HF as [|? ? (Fx & Fy & Fv) HF2]; subst x l.
      unfold flag_list. cbn [map flat_map]. fold (flag_list (map as_blk bs)). cbn [as_blk Params_Spec.b_funcs].
      rewrite param_names_cons in Eb. rewrite sflat_cons in Ep.
      destruct (s_funcs b) as [|f fs] eqn:Ef; [congruence|].
      inversion H1 as [|o ? o1' ? HM H1']; subst. cbn [map]. rewrite map_length.
      inversion HG1 as [|? ? G1 G2]; subst x l. inversion Fv as [|? ? F1 F2]; subst x l.
      rewrite combine_app by (cbn; rewrite repeat_length; f_equal; symmetry; exact (Forall2_len H1')).
      rewrite foldM_app. cbn [combine foldM]. unfold pm_body at 1. cbn [fst snd].
      set (params := ppre ++ s_x b :: s_y b :: flat_map s_vals (f :: fs) ++ sflat bs) in *.
      assert (Gx : get params (List.length ppre) = Ok (s_x b)) by (unfold params; apply get_app).
      assert (Gy : get params (List.length ppre + 1) = Ok (s_y b)).
      { unfold params. replace (ppre ++ s_x b :: s_y b :: flat_map s_vals (f :: fs) ++ sflat bs)
          with ((ppre ++ [s_x b]) ++ s_y b :: flat_map s_vals (f :: fs) ++ sflat bs) by (rewrite <- app_assoc; reflexivity).
        apply get_app_eq. rewrite app_length. reflexivity. }
      rewrite Gx, Gy. cbn [bind].
      assert (Lp : List.length ppre + 2 <= List.length params) by (unfold params; rewrite app_length; cbn; lia).
      rewrite (@print_short (pre ++ NL)) by (destruct HPre as [_ Q]; rewrite app_length; cbn; lia). cbn [bind].
      assert (e1 : errs_ok errs (List.length ppre)) by (unfold errs_ok; destruct errs; auto; lia).
      assert (e2 : errs_ok errs (List.length ppre + 1)) by (unfold errs_ok; destruct errs; auto; lia).
      destruct (centre_X0 PF HPre Fx e1) as (lx & Elx & Lx). destruct (centre_Y0 PF HPre Fy e2) as (ly & Ely & Ly).
      rewrite Elx, Ely. cbn [bind].
      replace (List.length ppre + 2) with (List.length (ppre ++ [s_x b; s_y b])) by (rewrite app_length; reflexivity).
      assert (HL : List.length (s_vals f) = List.length (names_of f)).
      { destruct G1 as ((c & Hc1 & Hc2 & Hc3) & _). rewrite (names_of_class Hc1 Hc2). exact Hc3. }
      assert (HLs : List.length (flat_map s_vals fs) = List.length (flat_map names_of fs)).
      { clear -G2. induction G2 as [|h fs Hh HFs IHs]; auto. cbn [flat_map]. rewrite !app_length, IHs. f_equal.
        destruct Hh as ((c & Hc1 & Hc2 & Hc3) & _). rewrite (names_of_class Hc1 Hc2). exact Hc3. }
      destruct (@func_ok m o f errs params (npre ++ [lit "X0"; lit "Y0"]) (flat_map names_of fs ++ param_names bs)
          (ppre ++ [s_x b; s_y b]) (flat_map s_vals fs ++ sflat bs) (out ++ [pre ++ NL; lx; ly]) HM G1 F1) as (s1 & E1 & L1); auto.
      { rewrite Eb. cbn [flat_map]. rewrite <- !app_assoc. reflexivity. }
      { unfold params. cbn [flat_map]. rewrite <- !app_assoc. reflexivity. }
      { rewrite !app_length. cbn [List.length]. lia. }
      rewrite E1. cbn [bind].
      destruct (@funcs_ok m offX offY errs params fs o1' ((npre ++ [lit "X0"; lit "Y0"]) ++ names_of f) (param_names bs)
          ((ppre ++ [s_x b; s_y b]) ++ s_vals f) (sflat bs) ((out ++ [pre ++ NL; lx; ly]) ++ s1) H1' G2 F2) as (s2 & E2 & L2); auto.
      { rewrite Eb. cbn [flat_map]. rewrite <- !app_assoc. reflexivity. }
      { unfold params. cbn [flat_map]. rewrite <- !app_assoc. reflexivity. }
      { rewrite !app_length. cbn [List.length]. lia. }
      rewrite E2. cbn [bind].
      destruct (IH o2 (((npre ++ [lit "X0"; lit "Y0"]) ++ names_of f) ++ flat_map names_of fs)
          (((ppre ++ [s_x b; s_y b]) ++ s_vals f) ++ flat_map s_vals fs) (((out ++ [pre ++ NL; lx; ly]) ++ s1) ++ s2)) as (s3 & E3 & L3); auto.
      { rewrite Eb. cbn [flat_map]. rewrite <- !app_assoc. reflexivity. }
      { unfold params. cbn [flat_map]. rewrite <- !app_assoc. reflexivity. }
      { rewrite !app_length. cbn [List.length]. lia. }
      rewrite E3. exists ([pre ++ NL] ++ [lx] ++ [ly] ++ (s1 ++ s2) ++ s3). split; [f_equal; f_equal; rewrite <- !app_assoc; reflexivity|].
      cbn [map flat_map block_linesL]. unfold desc_b at 1, block_linesL at 1. cbn [bk_x bk_y bk_funcs fst snd]. rewrite ?Ef. cbn [map flat_map].
      assert (Lb : Lines pre [] [pre ++ NL]).
      { apply (@Lines_skip pre []). constructor. exists [], []. repeat split; auto. }
      exact (Lines_app Lb (Lines_app Lx (Lines_app Ly (Lines_app (Lines_app L1 L2) L3)))).
  Qed.
End Whole.
