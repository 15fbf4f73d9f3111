From Coq Require Import Ascii String List ZArith Lia Bool Reals.
From Verif Require Import Base Num StrUtil_Model StrUtil_Spec StrUtil_Proof Config_Model Config_Spec Config_Proof ConfigL_Spec ConfigL_Proof.
From Verif Require Import Params_Model Params_Spec Params_Proof Build_Model Save_Model Save_Spec Build_Spec Build_Proof Save_Proof Save_Final.
From Verif Require Import Conv_Model Conv_Spec CmdLine_Spec Opt_Spec Start_Spec Chain_Spec.
From Verif Require Image_Model Image_Spec Par_Model Par_Spec Sums.
From Verif Require Import Make_Model Make_Spec Make_Proof.
Set Implicit Arguments. Unset Strict Implicit.
Import ListNotations.
Local Open Scope list_scope.

(** ---- shapes ---- *)
Section Shape.
  Variables T U : Type.
  Definition same_f (f : sfunc T) (f' : sfunc U) : Prop :=
    s_name f' = s_name f /\ s_label f' = s_label f /\ s_opts f' = s_opts f /\ List.length (s_vals f') = List.length (s_vals f).
  Lemma shape_blocks (bs : list (sblock T)) : forall bs' : list (sblock U), shape bs' = shape bs ->
    Forall2 (fun b b' => Forall2 same_f (s_funcs b) (s_funcs b')) bs bs'.
  Proof.
    unfold shape. induction bs as [|b bs IH]; intros [|b' bs'] H; try discriminate; constructor.
    - cbn [map] in H. injection H as H _. revert H. generalize (s_funcs b'). induction (s_funcs b) as [|f fs IHf]; intros [|f' fs'] H; try discriminate; constructor.
      + cbn [map] in H. injection H as E1 E2 E3 E4 _. repeat split; assumption.
      + apply IHf. cbn [map] in H. injection H as _ _ _ _ H. exact H.
    - apply IH. cbn [map] in H. injection H as _ H. exact H.
  Qed.
  Lemma shape_all (bs : list (sblock T)) (bs' : list (sblock U)) : shape bs' = shape bs -> Forall2 same_f (sall bs) (sall bs').
  Proof.
    intros H. apply shape_blocks in H. unfold sall. induction H as [|b b' bs bs' Hb HF IH]; [constructor|].
    cbn [flat_map]. apply Forall2_app; assumption.
  Qed.
  Lemma shape_starts (bs : list (sblock T)) (bs' : list (sblock U)) : shape bs' = shape bs -> sstarts bs' = sstarts bs.
  Proof.
    intros H. apply shape_blocks in H. unfold sstarts. generalize 0%nat. induction H as [|b b' bs bs' Hb HF IH]; intros k; [reflexivity|].
    cbn [map starts]. rewrite IH. cbn [as_blk Params_Spec.b_funcs]. rewrite !map_length, (Forall2_len Hb). reflexivity.
  Qed.
  Lemma shape_nonempty (bs : list (sblock T)) (bs' : list (sblock U)) : shape bs' = shape bs ->
    bs <> [] /\ Forall (fun b => s_funcs b <> []) bs -> bs' <> [] /\ Forall (fun b => s_funcs b <> []) bs'.
  Proof.
    intros H [H1 H2]. apply shape_blocks in H. split.
    - intros ->. inversion H; subst. now apply H1.
    - clear H1. induction H as [|b b' bs bs' Hb HF IH]; constructor; inversion H2; subst.
      + intros E. rewrite E in Hb. inversion Hb as [E'|]. congruence.
      + auto.
  Qed.
  Lemma same_map A (p : sfunc T -> A) (p' : sfunc U -> A) fs fs' : Forall2 same_f fs fs' ->
    (forall f f', same_f f f' -> p' f' = p f) -> map p' fs' = map p fs.
  Proof. intros H HP. induction H as [|f f' fs fs' Hf HF IH]; cbn [map]; [reflexivity|]. rewrite IH, (HP _ _ Hf). reflexivity. Qed.
  Lemma same_Forall (p : sfunc T -> Prop) (p' : sfunc U -> Prop) fs fs' : Forall2 same_f fs fs' ->
    (forall f f', same_f f f' -> p f -> p' f') -> Forall p fs -> Forall p' fs'.
  Proof. intros H HP. induction H as [|f f' fs fs' Hf HF IH]; intros HH; constructor; inversion HH; subst; eauto. Qed.
End Shape.

(** ---- reading the saved file ---- *)
Section Read.
  Variable T : Type.
  Variable N : Num T.
  Variable toR : T -> R.
  Variable finite : T -> Prop.
  Variables f4 g g5 : T -> str.
  Hypothesis PF : PrintfOK toR finite f4 g g5.
  Variable strtod : str -> R.
  Hypothesis HX : Exact strtod.
  Variable IsNumeric : str -> bool.
  Hypothesis HN : AcceptsDecimals IsNumeric.
  Variables offX offY : T.

  (** the values read; [opts]: the optional parameters to show *)
  Definition read_f (opts : sfunc T -> smap) (f : sfunc T) : sfunc R :=
    mkSfunc (s_name f) (s_label f) (opts f) (map (fun v => strtod (g v)) (s_vals f)).
  Definition read_b (opts : sfunc T -> smap) (b : sblock T) : sblock R :=
    mkSblock (strtod (f4 (nadd N (s_x b) offX))) (strtod (f4 (nadd N (s_y b) offY))) (map (read_f opts) (s_funcs b)).
  Lemma read_shape bs : shape (map (read_b (@s_opts T)) bs) = shape bs.
  Proof.
    unfold shape. rewrite map_map. apply map_ext. intros b. cbn [read_b s_funcs]. rewrite map_map. apply map_ext. intros f.
    cbn [read_f s_name s_label s_opts s_vals]. now rewrite map_length.
  Qed.
  Lemma read_sall opts bs : sall (map (read_b opts) bs) = map (read_f opts) (sall bs).
  Proof. unfold sall. induction bs as [|b bs IH]; [reflexivity|]. cbn [map flat_map]. rewrite IH, map_app. reflexivity. Qed.
  Lemma read_sflat opts bs : sflat (map (read_b opts) bs) = map (fun p => strtod (numeral f4 g p)) (shown (nadd N) offX offY bs).
  Proof.
    induction bs as [|b bs IH]; [reflexivity|]. cbn [map]. rewrite sflat_cons, IH. unfold shown. cbn [flat_map map app]. rewrite map_app.
    cbn [read_b s_x s_y s_funcs]. unfold numeral at 1 2. cbn [fst snd]. do 2 f_equal. f_equal.
    rewrite map_map. unfold numeral. cbn [fst snd]. induction (s_funcs b) as [|f fs IHf]; [reflexivity|]. cbn [map flat_map].
    rewrite IHf, map_app. reflexivity.
  Qed.
  Lemma read_starts opts bs : sstarts (map (read_b opts) bs) = sstarts bs.
  Proof.
    unfold sstarts. generalize 0%nat. induction bs as [|b bs IH]; intros k; [reflexivity|]. cbn [map starts]. rewrite IH.
    cbn [read_b as_blk Params_Spec.b_funcs s_funcs]. now rewrite !map_length.
  Qed.
  Lemma read_near opts bs : AllFinite finite (nadd N) offX offY bs ->
    Forall2 (Near toR) (sflat (map (read_b opts) bs)) (shown (nadd N) offX offY bs).
  Proof.
    intros HF. rewrite read_sflat. unfold AllFinite in HF. apply Forall2_map_l. intros p Hp. rewrite Forall_forall in HF. specialize (HF p Hp).
    unfold Near, numeral. destruct (snd p).
    - destruct (@f4_value _ _ _ _ _ _ PF _ HF) as (r & D & B). rewrite (HX D). exact B.
    - destruct (@g_value _ _ _ _ _ _ PF _ HF) as (r & D & B). rewrite (HX D). exact B.
  Qed.

  Definition opts_read (f : sfunc T) : smap := set_opts [] (opts_of (desc_f g f)).
  Lemma opts_read_order f : NoDup (map fst (s_opts f)) -> in_order (opts_read f) = in_order (kept f).
  Proof.
    intros H. assert (HO : NoDup (map fst (kept f))) by (apply kept_nodup; exact H).
    unfold opts_read. rewrite desc_opts, set_opts_new.
    2:{ cbn [app]. apply sorted_nodup, in_order_sorted. exact HO. }
    cbn [app]. apply in_order_same; [apply sorted_nodup, in_order_sorted; exact HO|exact HO|].
    intros k. apply map_get_in_order. exact HO.
  Qed.
  Lemma read_R bs (psf : option (Z * Z)) m errs header report :
    AddFunctions psf (map s_name (sall bs)) (map s_label (sall bs)) (sstarts bs) (map s_opts (sall bs)) = Ok (0%Z, Some m) ->
    GoodModel bs -> AllFinite finite (nadd N) offX offY bs -> ErrorsFor errs bs ->
    Forall Comment header -> Forall OneLine report ->
    exists txt, SaveParameters N f4 g g5 header report m offX offY (sflat bs) errs = Ok txt /\
    exists po, ReadConfigFile_limited NumR strtod IsNumeric (file_lines txt) true [] = Ok (0%Z, Some (po, [])) /\
      Describes (map (read_b opts_read) bs) po.
  Proof.
    intros HB HG HFin HE HH HR. pose proof HG as (Hne & Hb & HGf).
    destruct (@add_functions_ok T psf bs Hne Hb) as [(s & Hs & E & _)|(os & E & _ & H2 & _)]; rewrite E in HB; inversion HB; subst.
    destruct (@save_lines T N toR finite f4 g g5 PF os bs offX offY errs header report HG HFin H2 HE HH HR) as (txt & ES & HS).
    exists txt. split; [exact ES|].
    assert (HSz : Forall Sized (sall bs)) by (eapply Forall_impl; [|exact HGf]; cbn; tauto).
    assert (HNe : all_funcsL (map (desc_b N f4 g offX offY) bs) <> []).
    { rewrite desc_funcs. destruct bs as [|b bs]; [congruence|]. inversion Hb; subst. unfold sall. cbn [flat_map].
      destruct (s_funcs b); [congruence|discriminate]. }
    assert (HNb : map (desc_b N f4 g offX offY) bs <> []) by (destruct bs; [congruence|discriminate]).
    destruct (@round_tripL R NumR strtod IsNumeric [] (map (desc_b N f4 g offX offY) bs) (file_lines txt) HS HNb HNe) as [_ HL].
    { rewrite (desc_params N f4 g offX offY HSz), map_map. cbn [fst snd]. apply Forall_map. apply Forall_forall. intros p Hp.
      unfold AllFinite in HFin. rewrite Forall_forall in HFin. specialize (HFin p Hp). unfold numeral.
      destruct (snd p); [destruct (@f4_value _ _ _ _ _ _ PF _ HFin) as (r & D & _)|destruct (@g_value _ _ _ _ _ _ PF _ HFin) as (r & D & _)];
        (split; [exact (HN D)|exact I]). }
    destruct (HL []) as (po & EP & (A1 & A2 & A3 & A4 & A5 & A6 & A7)). exists po. split; [exact EP|].
    rewrite desc_funcs in *. rewrite (desc_params N f4 g offX offY HSz) in *.
    split; [|split; [|split; [|split]]].
    - rewrite A1, read_sall, !map_map. reflexivity.
    - rewrite A2, read_sall, !map_map. reflexivity.
    - rewrite A5, read_starts. apply desc_starts.
    - rewrite A7, read_sall, !map_map. reflexivity.
    - rewrite A3, read_sflat, map_map. reflexivity.
  Qed.
End Read.

(** ---- the optional parameters that are kept decide what is drawn ---- *)
Lemma kept_cases T (f : sfunc T) :
  kept f = s_opts f \/ (kept f = [] /\ ~ (s_name f = PS /\ exists v t, in_order (s_opts f) = (list_ascii_of_string "method", v) :: t)).
Proof.
  unfold kept. destruct (in_order (s_opts f)) as [|[k v] t] eqn:E.
  - left. symmetry. apply in_order_nil. exact E.
  - destruct (list_eq_dec ascii_dec (s_name f) (list_ascii_of_string "PointSource")) as [e|n].
    + destruct (list_eq_dec ascii_dec k (list_ascii_of_string "method")) as [e'|n']; [now left|]. right. split; [reflexivity|].
      intros (_ & v' & t' & H). injection H as H _ _. contradiction.
    + right. split; [reflexivity|]. intros (H & _). contradiction.
Qed.
Lemma asked_kept T U (f : sfunc T) (f' : sfunc U) m : s_name f = PS -> in_order (s_opts f') = in_order (kept f) -> Asked f' m <-> Asked f m.
Proof.
  intros HP HO. unfold Asked. rewrite HO. destruct (kept_cases f) as [->|(-> & H)]; [tauto|].
  change (in_order []) with (@nil (list ascii * list ascii)).
  split; intros [(v & t & E & _)|(_ & E)]; try discriminate.
  - right. split; [|exact E]. intros X. apply H. auto.
  - exfalso. apply H. eauto.
  - right. split; [|exact E]. intros (v & t & X). discriminate.
Qed.
Lemma accepts_kept T (f : sfunc T) mp : in_order mp = in_order (kept f) -> Accepts (s_name f) (s_opts f) -> Accepts (s_name f) mp.
Proof.
  intros HO HA. destruct (kept_cases f) as [E|(E & _)]; rewrite E in HO.
  - destruct HA as [HA|(k & v & t & HA & HB)].
    + left. apply in_order_nil. rewrite HO, HA. reflexivity.
    + right. exists k, v, t. rewrite HO. auto.
  - left. apply in_order_nil. exact HO.
Qed.

(** ---- the same images ---- *)
Section Same.
  Variable interpolator : Z -> list R -> nat -> nat -> R -> R -> R.
  Variable implement : word -> Par_Model.component R.
  Variable dec : nat -> word.
  Variable program : word.
  Variable ReadImage : word -> option (nat * nat * list R).
  Variable its : list item.
  Variables w h : nat.
  Definition sim (f f' : sfunc R) : Prop :=
    s_name f' = s_name f /\ s_label f' = s_label f /\ s_vals f' = s_vals f /\ (s_name f = PS -> forall m, Asked f' m <-> Asked f m).
  Definition simb (b b' : sblock R) : Prop := s_x b' = s_x b /\ s_y b' = s_y b /\ Forall2 sim (s_funcs b) (s_funcs b').
  Lemma sim_all bs bs' : Forall2 simb bs bs' -> Forall2 sim (sall bs) (sall bs').
  Proof. unfold sall. induction 1 as [|b b' bs bs' (_ & _ & Hb) HF IH]; [constructor|]. cbn [flat_map]. apply Forall2_app; assumption. Qed.
  Lemma sim_map A (p : sfunc R -> A) fs fs' : Forall2 sim fs fs' -> (forall f f', sim f f' -> p f' = p f) -> map p fs' = map p fs.
  Proof. intros H HP. induction H as [|f f' fs fs' Hf HF IH]; cbn [map]; [reflexivity|]. rewrite IH, (HP _ _ Hf). reflexivity. Qed.
  Lemma sim_blk bs bs' : Forall2 simb bs bs' -> map (@as_blk R) bs' = map (@as_blk R) bs.
  Proof.
    induction 1 as [|b b' bs bs' (H1 & H2 & Hb) HF IH]; [reflexivity|]. cbn [map]. rewrite IH. f_equal. unfold as_blk. rewrite H1, H2.
    f_equal. apply (sim_map Hb). intros f f' (_ & _ & E & _). exact E.
  Qed.
  Lemma sim_num A (p : nat -> sfunc R -> A) fs fs' : Forall2 sim fs fs' -> (forall i f f', sim f f' -> p i f' = p i f) ->
    forall k, map (fun '(i, f) => p i f) (combine (seq k (List.length fs')) fs') = map (fun '(i, f) => p i f) (combine (seq k (List.length fs)) fs).
  Proof.
    intros H HP. induction H as [|f f' fs fs' Hf HF IH]; intros k; [reflexivity|]. cbn [List.length seq combine map]. rewrite IH, (HP _ _ _ Hf). reflexivity.
  Qed.
  Lemma sim_first fs fs' : Forall2 sim fs fs' -> forall f', FirstPoint fs' f' -> exists f, FirstPoint fs f /\ sim f f'.
  Proof.
    intros H f' (a & b & -> & HP & HN). revert fs H. induction a as [|x a IH]; intros fs H.
    - inversion H as [|f f0 fs0 fs1 Hf HF]; subst. exists f. split; [|exact Hf]. exists [], fs0.
      destruct Hf as (En & _). rewrite En in HP. split; [reflexivity|]. split; [exact HP|constructor].
    - inversion H as [|f f0 fs0 fs1 Hf HF]; subst. inversion HN as [|? ? N1 N2]; subst.
      destruct (IH N2 fs0 HF) as (f1 & (a' & b' & E1 & P1 & Q1) & S1).
      exists f1. split; [|exact S1]. exists (f :: a'), b'. subst fs0. split; [reflexivity|]. split; [exact P1|]. constructor; [|exact Q1].
      destruct Hf as (En & _). rewrite <- En. exact N1.
  Qed.

  Lemma images_sim bs bs' l : Forall (fun f => s_name f <> PSR) (sall bs) -> Forall2 simb bs bs' ->
    Images interpolator implement dec program ReadImage its bs w h l -> Images interpolator implement dec program ReadImage its bs' w h l.
  Proof.
    intros HR H (interp & model & wide & single & HI & HL & H1 & H2 & H3 & H4 & H5). pose proof (sim_all H) as HA.
    assert (EF : functions implement bs' = functions implement bs).
    { unfold functions. apply (sim_map HA). intros f f' (E & _). now rewrite E. }
    assert (EP : places bs' = places bs) by (unfold places; now rewrite (sim_blk H)).
    exists interp, model, wide, single. rewrite EF, EP. split; [|split; [|auto]].
    - intros f m t p HFP HAs HM HP. destruct (sim_first HA HFP) as (f0 & F0 & (En & _ & _ & EA)). apply (HI f0 m t p F0); auto.
      apply EA; [|exact HAs]. destruct F0 as (a & b & E & [P|P] & _); [exact P|]. exfalso. rewrite Forall_forall in HR. apply (HR f0); [|exact P].
      rewrite E. apply in_or_app. right. now left.
    - rewrite HL. destruct (saving its); [|reflexivity]. f_equal. f_equal. destruct (Start_Spec.first its "output-functions") as [root|]; [|reflexivity].
      symmetry. apply (@sim_num _ (fun i f => PImage (function_file dec root i f) (Z.of_nat w) (Z.of_nat h) (single i) (notes program its ++ [function_note f])) _ _ HA).
      intros i f f' (E1 & E2 & _). unfold function_file, function_note. now rewrite E1, E2.
  Qed.
  Lemma tables_sim strtod log10 e4 f4 f5 e3 g timestamp bs bs' : Forall2 simb bs bs' ->
    Tables implement strtod log10 e4 f4 f5 e3 g timestamp program its bs' = Tables implement strtod log10 e4 f4 f5 e3 g timestamp program its bs.
  Proof.
    intros H. pose proof (sim_all H) as HA.
    assert (EL : forall f f', sim f f' -> flux_of implement its f' = flux_of implement its f).
    { intros f f' (E1 & _ & E2 & _). unfold flux_of. now rewrite E1, E2. }
    assert (ET : total_flux implement its bs' = total_flux implement its bs) by (unfold total_flux; f_equal; apply (sim_map HA); exact EL).
    assert (ER : table_rows implement strtod log10 e4 f4 f5 e3 its bs' = table_rows implement strtod log10 e4 f4 f5 e3 its bs).
    { unfold table_rows. rewrite ET. f_equal. apply (sim_map HA). intros f f' S. rewrite (EL _ _ S). destruct S as (E1 & E2 & _). now rewrite E1, E2. }
    unfold Tables. rewrite ER. reflexivity.
  Qed.
End Same.

(** ---- the chain ---- *)
Section Chain.
  Variable T : Type.
  Variable N : Num T.
  Variable toR : T -> R.
  Variable finite : T -> Prop.
  Variables pf4 pg pg5 : T -> str.
  Hypothesis PF : PrintfOK toR finite pf4 pg pg5.
  Variable strtod : str -> R.
  Hypothesis HX : Exact strtod.
  Variable IsNumeric : str -> bool.
  Hypothesis HN : AcceptsDecimals IsNumeric.
  Variables offX offY : T.
  Variable bs : list (sblock T).
  Hypothesis HGood : GoodModel bs.
  Variable implement : word -> Par_Model.component R.
  Variable dbl : string -> R.
  Variable FileExists : word -> bool.
  Variable ReadImage : word -> option (nat * nat * list R).
  Variable GetImageSize : word -> option (Z * Z).
  Variables e4 f4 f5 e3 g : R -> word.
  Variable dec : nat -> word.
  Variables timestamp program : word.
  Variable its : list item.
  Variable ws : list word.
  Variable bs0 : list (sblock R).
  Variables w h : nat.
  Hypothesis HSh : shape bs0 = shape bs.
  Hypothesis HS : Sensible implement strtod dbl FileExists ReadImage GetImageSize (fun _ => Some ([], content bs0))
    e4 f4 f5 e3 g dec timestamp program its ws bs0 w h.
  Notation BS1 := (map (read_b N pf4 pg strtod offX offY (opts_read pg)) bs).
  Notation BS2 := (map (read_b N pf4 pg strtod offX offY (@s_opts T)) bs).

  Lemma nodup_opts f : In f (sall bs) -> NoDup (map fst (s_opts f)).
  Proof. intros Hf. destruct HGood as (_ & _ & HG). rewrite Forall_forall in HG. destruct (HG f Hf) as (_ & _ & HO & _). exact HO. Qed.
  Lemma carry (P : sfunc R -> Prop) (opts : sfunc T -> smap) :
    (forall f0 f, In f (sall bs) -> same_f f f0 -> P f0 -> P (read_f pg strtod opts f)) -> Forall P (sall bs0) ->
    Forall P (sall (map (read_b N pf4 pg strtod offX offY opts) bs)).
  Proof.
    intros HP. rewrite read_sall. pose proof (shape_all HSh) as HA. revert HP HA. generalize (sall bs0) as fs0. generalize (sall bs) as fs.
    intros fs fs0 HP HA. induction HA as [|f f0 fs fs0 Hf HF IH]; intros HH; constructor; inversion HH; subst.
    - apply (HP f0 f); auto. now left.
    - apply IH; auto. intros f1 f2 Hi. apply HP. now right.
  Qed.
  Lemma no_rot : Forall (fun f => s_name f <> PSR) (sall BS1).
  Proof.
    apply carry; [intros f0 f _ (E & _) H; cbn [read_f s_name]; congruence|].
    destruct (HS) as [_ _ _ _ _ _ _ _ _ _ _ _ _ _ S16 _ _ _].
    eapply Forall_impl; [|exact S16]. intros f (_ & H & _). exact H.
  Qed.
  Lemma read_sim : Forall2 simb BS1 BS2.
  Proof.
    assert (HA : forall f, In f (sall bs) -> In f (sall bs)) by auto. revert HA. unfold sall at 1.
    generalize bs at 1 3 4 as l. induction l as [|b l IH]; intros HA; cbn [map]; constructor.
    - split; [reflexivity|]. split; [reflexivity|]. cbn [read_b s_funcs]. cbn [flat_map] in HA.
      assert (HB : forall f, In f (s_funcs b) -> In f (sall bs)) by (intros f Hf; apply HA, in_or_app; now left). clear HA IH.
      induction (s_funcs b) as [|f fs IHf]; cbn [map]; constructor; [|apply IHf; intros f1 Hf1; apply HB; now right].
      split; [reflexivity|]. split; [reflexivity|]. split; [reflexivity|]. intros HP m. cbn [read_f s_name] in HP.
      assert (EQ : in_order (opts_read pg f) = in_order (kept f)) by (apply opts_read_order, nodup_opts, HB; now left).
      rewrite (@asked_kept T R f (read_f pg strtod (opts_read pg) f) m HP EQ).
      unfold Asked. cbn [read_f s_opts]. tauto.
    - apply IH. intros f Hf. apply HA. cbn [flat_map]. apply in_or_app. now right.
  Qed.

  Lemma sensible_read ReadConfig po : ReadConfig (config_file its) = Some ([], po) -> Describes BS1 po ->
    Sensible implement strtod dbl FileExists ReadImage GetImageSize ReadConfig
      e4 f4 f5 e3 g dec timestamp program its ws BS1 w h.
  Proof.
    intros ER HD. pose proof no_rot as NR.
    destruct (HS) as [S1 S2 S3 S4 S5 S6 (cfg & po0 & EC & _ & SG & SZ) S7 S9 S10 S11 S12 S14 S15 S16 S17 S18 S19].
    injection EC as <- <-.
    constructor; auto.
    - exists [], po. auto.
    - destruct HGood as (G1 & G2 & _). split; [destruct bs; [congruence|discriminate]|].
      apply Forall_map. eapply Forall_impl; [|exact G2]. intros b Hb. cbn [read_b s_funcs]. intros EQ. apply map_eq_nil in EQ. exact (Hb EQ).
    - destruct S14 as [B1 B2]. split.
      + revert B1. apply carry. intros f0 f Hf (E1 & _ & E2 & _) (K & A). cbn [read_f s_name s_opts]. rewrite <- E1. split; [exact K|].
        rewrite E1. apply accepts_kept; [apply opts_read_order, nodup_opts, Hf|]. rewrite E1, E2 in A. exact A.
      + intros HE. apply B2. rewrite read_sall in HE. pose proof (shape_all HSh) as HA. clear -HE HA.
        induction HA as [|f f0 fs fs0 Hf HF IH]; cbn [map] in HE; inversion HE as [? ? P|? ? P]; subst; [left|right; auto].
        destruct Hf as (E & _). rewrite E. exact P.
    - apply carry with (2 := S15). intros f0 f _ (E1 & _ & _ & E2) (c & H1 & H2 & H3). exists c. cbn [read_f s_name s_vals].
      rewrite map_length. rewrite <- E1, <- E2. auto.
    - apply carry with (2 := S16). intros f0 f _ (E1 & _ & _ & E2). unfold Implemented. cbn [read_f s_name s_vals].
      rewrite map_length, E1, E2. auto.
    - destruct S18 as (N1 & N2 & N3). split; [exact N1|]. split; [exact N2|].
      apply carry with (2 := N3). intros f0 f _ (_ & E1 & _). cbn [read_f s_label]. now rewrite E1.
  Qed.

  Variable interpolator : Z -> list R -> nat -> nat -> R -> R -> R.
  Variable cores : Z.
  Variable log10 : R -> R.
  Variables nThreads chunk : nat.
  Variable junk : Z * Z.
  Variable garbage : list (R -> R -> R).
  Variable prog : word.
  Definition reading (lines : list str) : option (list (str * str) * pout R) :=
    match ReadConfigFile_limited NumR strtod IsNumeric lines true [] with
    | Ok (0%Z, Some (po, opts)) => Some (opts, po)
    | _ => None
    end.
  Hypothesis Hn : (0 < nThreads)%nat.
  Hypothesis Hg : List.length garbage = List.length (sall bs).

  Lemma chain (psf : option (Z * Z)) m errs header report :
    AddFunctions psf (map s_name (sall bs)) (map s_label (sall bs)) (sstarts bs) (map s_opts (sall bs)) = Ok (0%Z, Some m) ->
    AllFinite finite (nadd N) offX offY bs -> ErrorsFor errs bs ->
    Forall Comment header -> Forall OneLine report ->
    exists txt bs', SaveParameters N pf4 pg pg5 header report m offX offY (sflat bs) errs = Ok txt /\
      shape bs' = shape bs /\ Forall2 (Near toR) (sflat bs') (shown (nadd N) offX offY bs) /\
      forall ReadConfig, ReadConfig (config_file its) = reading (file_lines txt) ->
      let run sched := makeimage NumR dft_r2c dft_c2r interpolator implement strtod dbl cores FileExists ReadImage GetImageSize ReadConfig
          log10 e4 f4 f5 e3 g dec timestamp program nThreads chunk sched junk garbage (prog :: ws) in
      let tables := Tables implement strtod log10 e4 f4 f5 e3 g timestamp program its bs' in
      let wanted := given its ["print-fluxes"%string] || Opt_Spec.has its "save-fluxes" in
      exists images, Images interpolator implement dec program ReadImage its bs' w h images /\
        (wanted = false -> forall sched, run sched = Ok (0%Z, images)) /\
        (wanted = true -> (forall sched, run sched = Fuel \/ run sched = Ok (0%Z, images ++ tables)) /\
                          exists sched, run sched = Ok (0%Z, images ++ tables)).
  Proof.
    intros HB HF HE HH HR.
    destruct (@read_R T N toR finite pf4 pg pg5 PF strtod IsNumeric HN offX offY bs psf m errs header report HB HGood HF HE HH HR) as (txt & ES & po & EP & HD).
    exists txt, BS2. split; [exact ES|]. split; [apply read_shape|]. split; [exact (@read_near T N toR finite pf4 pg pg5 PF strtod HX offX offY (@s_opts T) bs HF)|].
    intros ReadConfig ER run tables wanted. unfold run, tables, wanted.
    assert (ER' : ReadConfig (config_file its) = Some ([], po)) by (rewrite ER; unfold reading; rewrite EP; reflexivity).
    pose proof (sensible_read ER' HD) as HS'.
    assert (Hg' : List.length garbage = List.length (sall BS1)) by (rewrite read_sall, map_length; exact Hg).
    rewrite (@tables_sim implement program its strtod log10 e4 f4 f5 e3 g timestamp _ _ read_sim).
    destruct (@run_ok interpolator implement strtod dbl cores FileExists ReadImage GetImageSize ReadConfig log10 e4 f4 f5 e3 g dec timestamp program
      nThreads chunk junk garbage its ws BS1 w h prog) as (images & HI & H1 & H2); try assumption.
    exists images. split; [|split; assumption]. exact (images_sim no_rot read_sim HI).
  Qed.
End Chain.
