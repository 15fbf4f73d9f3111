(** Proofs for C74 and C75: what imfit writes after the fit. *)
From Coq Require Import ZArith List Bool Ascii String Lia.
From Verif Require Import Base Num Fit_Model Fit_Spec Fit_Proof StrUtil_Model Config_Model Build_Model Build_Spec Save_Spec
  Opt_Model Start_Model Finish_Model Finish_Spec Finish_Hand.
From Verif Require Boot_Model.
Import ListNotations.
Local Open Scope list_scope.
Set Implicit Arguments.
Unset Strict Implicit.
Local Open Scope nat_scope.

Ltac flds := cbn [with_bootstrap with_extra with_weights with_flags with_mask with_data nDataVals nDataColumns nDataRows dataVector dataValsSet maskExists maskVector nValid
      externalErrors dataErrors modelErrors useCash poissonMLR weightValsSet weightVector extraCash effectiveGain nCombined originalSky
      readNoise_adu_squared doConvolution nPSFColumns nPSFRows nModelColumns nModelRows doBootstrap bootstrapIndices].

(** ---- the bootstrap changes the world only through its environment ---- *)
Section Keep.
  Variables (T : Type) (N : Num T) (W : Type) (P : W -> Prop) (e : Boot_Model.env T W).
  Hypothesis K1 : forall seed w, P w -> P (Boot_Model.init_genrand e seed w).
  Hypothesis K2 : forall w, P w -> P (snd (Boot_Model.UseBootstrap e w)).
  Hypothesis K3 : forall w, P w -> P (Boot_Model.MakeBootstrapSample e w).
  Hypothesis K4 : forall p w, P w -> P (snd (Boot_Model.LevMarFit e p w)).
  Hypothesis K5 : forall p w, P w -> P (snd (Boot_Model.NMSimplexFit e p w)).
  Lemma boot_keeps qsort m labels nI nP best fixed nIt ws save seed multi w n l file w' :
    P w -> Boot_Model.BootstrapErrors N qsort e m labels nI nP best fixed nIt ws save seed multi w = Ok (n, l, file, w') -> P w'.
  Proof.
    intros Pw E. unfold Boot_Model.BootstrapErrors in E. apply bind_Ok in E. destruct E as ([[[n1 a1] f1] w1] & E1 & E2).
    assert (W1 : P w1).
    { clear E2. unfold Boot_Model.BootstrapErrorsBase in E1.
      assert (Ps : P (Boot_Model.seed_generator e seed w)) by (unfold Boot_Model.seed_generator; destruct (0 <? seed)%Z; apply K1; exact Pw).
      pose proof (@K2 _ Ps) as Pu. destruct (Boot_Model.UseBootstrap e (Boot_Model.seed_generator e seed w)) as [st wu]. cbn [snd] in Pu.
      destruct (st <? 0)%Z; [injection E1 as _ _ _ <-; exact Pu|].
      apply bind_Ok in E1. destruct E1 as ([[[[[a2 l2] k2] p2] o2] w2] & E1 & E2). injection E2 as _ _ _ <-.
      refine (@for_ok _ (fun _ (x : list (list T) * list (list T) * nat * list T * list T * W) => P (snd x)) _ _ _ (a2, l2, k2, p2, o2, w2) _ _ E1); [exact Pu|].
      intros i [[[[[a3 l3] k3] p3] o3] w3] [[[[[a4 l4] k4] p4] o4] w4] _ P3 E. cbn [snd] in *.
      apply bind_Ok in E. destruct E as (p5 & _ & E).
      assert (P6 : P (snd (Boot_Model.run_fit e ws p5 (Boot_Model.MakeBootstrapSample e w3)))).
      { unfold Boot_Model.run_fit. destruct (_ || _); [apply K4|apply K5]; now apply K3. }
      destruct (Boot_Model.run_fit e ws p5 (Boot_Model.MakeBootstrapSample e w3)) as [[s6 p6] w6]. cbn [snd] in P6.
      apply bind_Ok in E. destruct E as (o6 & _ & E). destruct (0 <? s6)%Z.
      - apply bind_Ok in E. destruct E as (a7 & _ & E). apply bind_Ok in E. destruct E as (l7 & _ & E).
        injection E as _ _ _ _ _ <-. exact P6.
      - injection E as _ _ _ _ _ <-. exact P6. }
    destruct (n1 <? Boot_Model.MIN_ITERATIONS_FOR_STATISTICS)%Z; [injection E2 as _ _ _ <-; exact W1|].
    apply bind_Ok in E2. destruct E2 as (l2 & _ & E2). injection E2 as _ _ _ <-. exact W1.
  Qed.
End Keep.

Section Keeps.
  Variables (T : Type) (N : Num T).
  Lemma final_keeps (o : mobj T) st o' : FinalSetupForFitting N o = Ok (st, o') -> externalErrors o' = externalErrors o /\
    (weightValsSet o = true -> weightValsSet o' = true) /\
    (useCash o = false -> dataErrors o = true -> externalErrors o = false -> weightValsSet o' = true).
  Proof.
    unfold FinalSetupForFitting. set (o0 := if maskExists o then o else _).
    assert (Q0 : externalErrors o0 = externalErrors o /\ weightValsSet o0 = weightValsSet o /\ useCash o0 = useCash o /\ dataErrors o0 = dataErrors o)
      by (unfold o0; destruct (maskExists o); repeat split; reflexivity).
    clearbody o0. intros E.
    apply bind_Ok in E. destruct E as (o1 & E1 & E).
    assert (Q1 : externalErrors o1 = externalErrors o /\ weightValsSet o1 = weightValsSet o /\ useCash o1 = useCash o /\ dataErrors o1 = dataErrors o).
    { unfold mask_nonfinite_data in E1. apply bind_Ok in E1. destruct E1 as (r & _ & E1). injection E1 as <-. exact Q0. }
    apply bind_Ok in E. destruct E as (o2 & E2 & E).
    assert (Q2 : externalErrors o2 = externalErrors o /\ (weightValsSet o = true -> weightValsSet o2 = true) /\
      (useCash o = false -> dataErrors o = true -> externalErrors o = false -> weightValsSet o2 = true)).
    { destruct Q1 as (A & B & C & D). rewrite A, C, D in E2.
      destruct (negb (useCash o) && dataErrors o && negb (externalErrors o)) eqn:Ec.
      - unfold GenerateErrorVector in E2. apply bind_Ok in E2. destruct E2 as (w & _ & E2). injection E2 as <-. flds. auto.
      - injection E2 as <-. split; [exact A|]. split; [congruence|]. intros U V X. rewrite U, V, X in Ec. discriminate. }
    apply bind_Ok in E. destruct E as (o3 & E3 & E).
    assert (Q3 : externalErrors o3 = externalErrors o2 /\ weightValsSet o3 = weightValsSet o2).
    { destruct (useCash o2 && poissonMLR o2); [|injection E3 as <-; auto].
      unfold GenerateExtraCashTerms in E3. apply bind_Ok in E3. destruct E3 as (w & _ & E3). injection E3 as <-. auto. }
    apply bind_Ok in E. destruct E as (o4 & E4 & E).
    assert (Q4 : externalErrors o4 = externalErrors o3 /\ weightValsSet o4 = weightValsSet o3).
    { destruct (externalErrors o3) eqn:Ee; [|injection E4 as <-; auto].
      unfold mask_nonfinite_weights in E4. apply bind_Ok in E4. destruct E4 as ([[mm ww] nn] & _ & E4). injection E4 as <-. flds. auto. }
    apply bind_Ok in E. destruct E as (o5 & E5 & E).
    assert (Q5 : externalErrors o5 = externalErrors o4 /\ weightValsSet o5 = weightValsSet o4).
    { unfold ApplyMask in E5. destruct (weightValsSet o4 && maskExists o4); [|injection E5 as <-; auto].
      apply bind_Ok in E5. destruct E5 as (w & _ & E5). injection E5 as <-. auto. }
    apply bind_Ok in E. destruct E as (ok & _ & E). apply bind_Ok in E. destruct E as ([dok o6] & E6 & E). injection E as _ <-.
    assert (Q6 : externalErrors o6 = externalErrors o5 /\ weightValsSet o6 = weightValsSet o5).
    { destruct (dataValsSet o5); [|injection E6 as _ <-; auto].
      unfold VetDataVector in E6. apply bind_Ok in E6. destruct E6 as (w & _ & E6). injection E6 as _ <-. auto. }
    destruct Q6 as (-> & ->), Q5 as (-> & ->), Q4 as (-> & ->), Q3 as (-> & ->). exact Q2.
  Qed.
  Lemma setup_flags (s : setup T) o : well_formed N s -> SetupModelObject N s = Ok o -> externalErrors o = user_errors s /\
    match s_stat s with ChiDataErrors => useCash o = false /\ dataErrors o = true | _ => weightValsSet o = true end.
  Proof.
    unfold SetupModelObject, user_errors. intros (_ & _ & WE & _) E.
    set (o0 := AddImageDataVector _ _ _ _) in E.
    assert (Q0 : externalErrors o0 = false /\ useCash o0 = false /\ dataErrors o0 = true).
    { unfold o0. destruct (s_psf s) as [[c r]|]; repeat split; reflexivity. }
    clearbody o0. apply bind_Ok in E. destruct E as (o1 & E1 & E).
    assert (Q1 : externalErrors o1 = false /\ useCash o1 = false /\ dataErrors o1 = true).
    { unfold AddImageCharacteristics in E1. destruct (_ && _); [|discriminate]. injection E1 as <-. exact Q0. }
    apply bind_Ok in E. destruct E as (o2 & E2 & E).
    assert (Q2 : externalErrors o2 = false /\ useCash o2 = false /\ dataErrors o2 = true).
    { destruct (s_mask s) as [[pix ty]|]; [|injection E2 as <-; exact Q1].
      apply bind_Ok in E2. destruct E2 as ([z o3] & E3 & E2). cbn [fst snd] in E2. destruct (z <? 0)%Z; [discriminate|]. injection E2 as <-.
      unfold AddMaskVector in E3. destruct (_ && _); [|discriminate].
      destruct (ty =? Fit_Model.MASK_ZERO_IS_GOOD)%Z; [|destruct (ty =? Fit_Model.MASK_ZERO_IS_BAD)%Z].
      - apply bind_Ok in E3. destruct E3 as (r & _ & E3). injection E3 as _ <-. exact Q1.
      - apply bind_Ok in E3. destruct E3 as (r & _ & E3). injection E3 as _ <-. exact Q1.
      - injection E3 as _ <-. exact Q1. }
    destruct Q2 as (A & B & C).
    destruct (s_stat s).
    - injection E as <-. split; [exact A|reflexivity].
    - injection E as <-. split; [exact A|reflexivity].
    - unfold AddErrorVector in E. destruct WE as (_ & [-> | [-> | ->]]);
      destruct (_ && _) in E; try discriminate; cbn in E; apply bind_Ok in E; destruct E as (w & _ & E); injection E as <-; split; reflexivity.
    - injection E as <-. split; [exact A|reflexivity].
    - injection E as <-. auto.
  Qed.
  Lemma prepare_flags (s : setup T) st o : well_formed N s -> prepare N s = Ok (st, o) -> externalErrors o = user_errors s /\ weightValsSet o = true.
  Proof.
    unfold prepare. intros WF E. apply bind_Ok in E. destruct E as (o1 & E1 & E2).
    destruct (setup_flags WF E1) as (A & B). destruct (final_keeps E2) as (C & D & F). rewrite C, A. split; [reflexivity|].
    unfold user_errors in A. destruct (s_stat s); auto. apply F; tauto.
  Qed.
End Keeps.

Section Like.
  Variables (T : Type) (N : Num T).
  Hypothesis H01 : nltb N (nofZ N 0) (nofZ N 1) = true.
  Hypothesis H00 : nltb N (nofZ N 0) (nofZ N 0) = false.
  Variable s : setup T.
  Variable st : Z.
  Variable o : mobj T.
  Hypothesis P : prepared N s st o.
  Hypothesis EP : prepare N s = Ok (st, o).

  (** an object during the fit: the prepared object except for the resample and, with
      errors from the model, for the weights of the usable pixels *)
  Record like (o' : mobj T) (ob : option (list nat)) : Prop := {
    lk_eq : o' = with_weights (resampled o ob) (weightValsSet o) (externalErrors o) (weightVector o');
    lk_len : List.length (weightVector o') = npix s;
    lk_w : match s_stat s with
           | ChiModelErrors => forall z, z < npix s -> usable N s z = false -> at_ N (weightVector o') z = at_ N (weightVector o) z
           | _ => weightVector o' = weightVector o
           end;
    lk_ob : resample_ok N s ob }.

  Definition weights_for (mv : list T) : list T := map (used_weight N s o mv) (seq 0 (npix s)).
  Definition updated (mv : list T) (ob : option (list nat)) : mobj T :=
    with_weights (resampled o ob) (weightValsSet o) (externalErrors o) (weights_for mv).

  Lemma weights_at mv z : z < npix s -> at_ N (weights_for mv) z = used_weight N s o mv z.
  Proof.
    intros H. unfold weights_for, at_. rewrite (nth_indep _ _ (used_weight N s o mv 0)) by (rewrite map_length, seq_length; exact H).
    rewrite map_nth, seq_nth by exact H. reflexivity.
  Qed.
  Lemma weights_len mv : List.length (weights_for mv) = npix s.
  Proof. unfold weights_for. now rewrite map_length, seq_length. Qed.

  Lemma like_start : like o None.
  Proof.
    constructor.
    - destruct o; reflexivity.
    - exact (p_wl P).
    - destruct (s_stat s); auto.
    - exact I.
  Qed.
  Lemma like_updated mv ob : resample_ok N s ob -> like (updated mv ob) ob.
  Proof.
    intros R. constructor; [| | |exact R].
    - unfold updated. destruct ob; reflexivity.
    - exact (weights_len mv).
    - assert (E : weightVector (updated mv ob) = weights_for mv) by (unfold updated; destruct ob; reflexivity). rewrite E.
      destruct (s_stat s) eqn:Es.
      5: apply (@at_ext T N); [rewrite weights_len; symmetry; exact (p_wl P)|].
      1-3: apply (@at_ext T N); [rewrite weights_len; symmetry; exact (p_wl P)|].
      1-3,5: intros z Hz; rewrite weights_len in Hz; rewrite weights_at by exact Hz; unfold used_weight; rewrite Es; reflexivity.
      intros z Hz U. rewrite weights_at by exact Hz. unfold used_weight. rewrite Es, U. reflexivity.
  Qed.

  Lemma refresh o' ob mv : like o' ob -> List.length mv = model_size s ->
    (if modelErrors o' then UpdateWeightVector N o' mv else Ok o') = Ok (updated mv ob).
  Proof.
    intros [LE LL LW LO] L. pose proof P as P0. pose proof (fun z => @model_index T N s st o mv z P0 L) as MI.
    assert (RM : modelErrors o' = modelErrors o) by (rewrite LE; destruct ob; reflexivity). rewrite RM, (p_mod P).
    assert (SAME : weightVector o' = weights_for mv -> o' = updated mv ob).
    { intros EW. rewrite LE, EW. reflexivity. }
    assert (KEEP : s_stat s <> ChiModelErrors -> weightVector o' = weightVector o -> o' = updated mv ob).
    { intros NE EW. apply SAME. rewrite EW. apply (@at_ext T N); [rewrite weights_len; exact (p_wl P)|].
      intros z Hz. rewrite (p_wl P) in Hz. rewrite weights_at by exact Hz. unfold used_weight.
      destruct (s_stat s); try reflexivity. congruence. }
    destruct (s_stat s) eqn:Es; try (rewrite KEEP; [reflexivity|congruence|exact LW]).
    unfold UpdateWeightVector. destruct (p_m P) as (Lm & Hm).
    assert (FN : nDataVals o' = npix s) by (rewrite LE, <- (p_n P); destruct ob; reflexivity).
    assert (FE : maskExists o' = true) by (rewrite LE, <- (p_me P); destruct ob; reflexivity).
    assert (FM : maskVector o' = maskVector o) by (rewrite LE; destruct ob; reflexivity).
    assert (FZ : forall z, zModel o' z = zModel o z) by (intros; rewrite LE; destruct ob; reflexivity).
    assert (FS : originalSky o' = s_sky s) by (rewrite LE, <- (p_sky P); destruct ob; reflexivity).
    assert (FG : effectiveGain o' = total_gain N s) by (rewrite LE, <- (p_eg P); destruct ob; reflexivity).
    assert (FC : nCombined o' = nofZ N (s_nCombined s)) by (rewrite LE, <- (p_nc P); destruct ob; reflexivity).
    assert (FR : readNoise_adu_squared o' = readNoise_adu_squared o) by (rewrite LE; destruct ob; reflexivity).
    match goal with |- context [each ?n ?f ?w0] => destruct (@each_ok T N n f w0
       (fun z x => if usable N s z then ndiv N (nofZ N 1) (nsqrt N (noise_sq N s (nadd N (model_at N s mv z) (s_sky s)))) else x)) as (w' & E & L' & A & B) end.
    - rewrite FN, LL. apply le_n.
    - intros z Hz. rewrite FN in Hz. rewrite FE, FM, (@at_get T N) by lia. cbn [bind]. rewrite Hm, (ltb_bit H01 H00) by exact Hz. cbn [bind].
      destruct (usable N s z); [|reflexivity]. rewrite FZ, MI by exact Hz. cbn [bind].
      rewrite FS, FG, FC, FR, (p_rn P). reflexivity.
    - rewrite E. cbn [bind]. f_equal. rewrite LE. unfold updated.
      assert (EW : w' = weights_for mv).
      { apply (@at_ext T N); [rewrite weights_len; congruence|]. intros z Hz. rewrite L', LL in Hz.
        rewrite weights_at by exact Hz. rewrite A by (rewrite FN; exact Hz). unfold used_weight. rewrite Es.
        destruct (usable N s z) eqn:U; [reflexivity|]. now apply LW. }
      rewrite EW. destruct ob; reflexivity.
  Qed.

  Lemma like_cash o' ob : like o' ob -> useCash o = true -> o' = resampled o ob.
  Proof.
    intros [LE LL LW LO] U. rewrite (p_uc P) in U. destruct (s_stat s); try discriminate; rewrite LE, LW; destruct ob, o; reflexivity.
  Qed.
  Lemma updated_cash mv ob : useCash o = true -> updated mv ob = resampled o ob.
  Proof.
    intros U. unfold updated. assert (EW : weights_for mv = weightVector o).
    { apply (@at_ext T N); [rewrite weights_len; symmetry; exact (p_wl P)|]. intros z Hz. rewrite weights_len in Hz.
      rewrite weights_at by exact Hz. unfold used_weight. rewrite (p_uc P) in U. destruct (s_stat s); try discriminate; reflexivity. }
    rewrite EW. destruct ob, o; reflexivity.
  Qed.
  Lemma like_resampled ob : resample_ok N s ob -> like (resampled o ob) ob.
  Proof.
    intros R. constructor; [destruct ob, o; reflexivity| | |exact R].
    - rewrite <- (p_wl P). destruct ob; reflexivity.
    - replace (weightVector (resampled o ob)) with (weightVector o) by (destruct ob; reflexivity). destruct (s_stat s); auto.
  Qed.

  Lemma statistic_like o' ob mv : like o' ob -> List.length mv = model_size s ->
    GetFitStatistic N o' mv = GetFitStatistic N (resampled o ob) mv /\
    forall o2 v, GetFitStatistic N o' mv = Ok (o2, v) -> o2 = updated mv ob.
  Proof.
    intros K L. assert (U : useCash o' = useCash o) by (rewrite (lk_eq K); destruct ob; reflexivity).
    assert (U2 : useCash (resampled o ob) = useCash o) by (destruct ob; reflexivity).
    unfold GetFitStatistic. rewrite U, U2. destruct (useCash o) eqn:Eu.
    - rewrite (like_cash K Eu), (updated_cash mv ob Eu). split; [reflexivity|]. intros o2 v E. apply bind_Ok in E. destruct E as (x & _ & E). congruence.
    - unfold ChiSquared. rewrite (refresh K L), (refresh (like_resampled (lk_ob K)) L). split; [reflexivity|]. cbn [bind].
      intros o2 v E. apply bind_Ok in E. destruct E as (x & _ & E). congruence.
  Qed.
  Lemma deviates_like o' ob mv y off : like o' ob -> List.length mv = model_size s ->
    ComputeDeviates N o' mv y off = ComputeDeviates N (resampled o ob) mv y off /\
    forall o2 v, ComputeDeviates N o' mv y off = Ok (o2, v) -> o2 = updated mv ob.
  Proof.
    intros K L. unfold ComputeDeviates. rewrite (refresh K L), (refresh (like_resampled (lk_ob K)) L). split; [reflexivity|]. cbn [bind].
    intros o2 v E. apply bind_Ok in E. destruct E as (x & _ & E). congruence.
  Qed.
  Lemma terms_like o' ob : like o' ob -> nTerms o' = List.length (pixels s ob).
  Proof.
    intros K. destruct (resampled_frame P (lk_ob K)) as (E & _). rewrite <- E, (lk_eq K). destruct ob; reflexivity.
  Qed.
  Lemma statistic_total o' ob mv : like o' ob -> List.length mv = model_size s -> exists o2 v, GetFitStatistic N o' mv = Ok (o2, v).
  Proof.
    intros K L. rewrite (proj1 (statistic_like K L)). unfold GetFitStatistic.
    assert (U2 : useCash (resampled o ob) = useCash o) by (destruct ob; reflexivity). rewrite U2, (p_uc P).
    assert (D : chi_statistic s \/ ~ chi_statistic s) by (unfold chi_statistic; destruct (s_stat s); auto).
    destruct D as [D|D].
    - destruct (@chi_ok T N H01 H00 s st o mv ob P L (lk_ob K) D) as (o2 & E). rewrite E.
      destruct (s_stat s) eqn:Es; unfold chi_statistic in D; rewrite Es in D; try contradiction; eauto.
    - rewrite (@cash_ok T N s st o mv ob P L (lk_ob K) D).
      destruct (s_stat s) eqn:Es; unfold chi_statistic in D; rewrite Es in D; try (exfalso; apply D; exact I); cbn [bind]; eauto.
  Qed.
  Lemma deviates_total o' ob mv : like o' ob -> List.length mv = model_size s ->
    exists o2 v, ComputeDeviates N o' mv (repeat (nofZ N 0) (nTerms o')) 0 = Ok (o2, v).
  Proof.
    intros K L. rewrite (proj1 (deviates_like _ _ K L)).
    destruct (@deviates_ok T N H01 H00 s st o mv ob (repeat (nofZ N 0) (nTerms o')) 0 P L (lk_ob K)) as (o2 & E).
    - rewrite repeat_length, (terms_like K). apply le_n.
    - rewrite E. eauto.
  Qed.

  Section Run.
  Variable IS : Type.
  Variable create : IS -> list T -> res (IS * list T).
  Hypothesis SZ : Sizes create s.

  (** the world during the fit: if an image has been computed, the object has seen it *)
  Definition winv (ob : option (list nat)) (w : world T IS) : Prop := like (w_obj w) ob.

  Lemma fit_statistic_ok ob w p v w' : winv ob w -> fit_statistic N create w p = Ok (v, w') ->
    exists vec, create (w_img w) p = Ok (w_img w', vec) /\ StatisticOf N s ob vec v /\ w_obj w' = updated vec ob /\ w_vec w' = Some vec.
  Proof.
    intros K E. unfold fit_statistic in E. apply bind_Ok in E. destruct E as ([img vec] & Ec & E).
    apply bind_Ok in E. destruct E as ([o2 v2] & Eg & E). injection E as <- <-.
    pose proof (SZ Ec) as L. destruct (statistic_like K L) as (E1 & E2). exists vec. cbn [w_img w_obj w_vec].
    split; [exact Ec|]. split; [|split; [exact (E2 _ _ Eg)|reflexivity]].
    exists st, o, o2. split; [exact EP|]. now rewrite <- E1.
  Qed.
  Lemma deviates_step ob w p y w' : winv ob w -> deviates N create w p = Ok (y, w') ->
    exists vec, create (w_img w) p = Ok (w_img w', vec) /\ DeviatesOf N s ob vec y /\ w_obj w' = updated vec ob /\ w_vec w' = Some vec.
  Proof.
    intros K E. unfold deviates in E. apply bind_Ok in E. destruct E as ([img vec] & Ec & E).
    apply bind_Ok in E. destruct E as ([o2 v2] & Eg & E). injection E as <- <-.
    pose proof (SZ Ec) as L. rewrite (terms_like K) in Eg. destruct (deviates_like (repeat (nofZ N 0) (List.length (pixels s ob))) 0 K L) as (E1 & E2). exists vec. cbn [w_img w_obj w_vec].
    split; [exact Ec|]. split; [|split; [exact (E2 _ _ Eg)|reflexivity]].
    exists st, o, o2. split; [exact EP|]. now rewrite <- E1.
  Qed.
  Lemma updated_inv vec ob (w : world T IS) : resample_ok N s ob -> w_obj w = updated vec ob -> winv ob w.
  Proof. intros R E. unfold winv. rewrite E. now apply like_updated. Qed.

  Lemma converse_ok A (q : session T A) : forall ob w a w', winv ob w -> converse N create q w = Ok (a, w') -> winv ob w'.
  Proof.
    induction q as [a0|p k IH|p k IH]; intros ob w a w' K E; cbn [converse] in E.
    - injection E as _ <-. exact K.
    - apply bind_Ok in E. destruct E as ([v w1] & E1 & E). cbn [fst snd] in E. refine (IH _ ob w1 a w' _ E).
      destruct (fit_statistic_ok K E1) as (vec & _ & _ & E2 & _). exact (updated_inv (lk_ob K) E2).
    - apply bind_Ok in E. destruct E as ([v w1] & E1 & E). cbn [fst snd] in E. refine (IH _ ob w1 a w' _ E).
      destruct (deviates_step K E1) as (vec & _ & _ & E2 & _). exact (updated_inv (lk_ob K) E2).
  Qed.
  Lemma converse_answered A (q : session T A) : forall w a w', winv None w -> converse N create q w = Ok (a, w') ->
    Answered N create s (w_img w) q a (w_img w').
  Proof.
    induction q as [a0|p k IH|p k IH]; intros w a w' K E; cbn [converse] in E.
    - injection E as <- <-. constructor.
    - apply bind_Ok in E. destruct E as ([v w1] & E1 & E). cbn [fst snd] in E.
      destruct (fit_statistic_ok K E1) as (vec & Ec & ES & E2 & _).
      eapply An_stat; [exact Ec|exact ES|]. refine (IH _ _ _ _ _ E). exact (updated_inv (lk_ob K) E2).
    - apply bind_Ok in E. destruct E as ([v w1] & E1 & E). cbn [fst snd] in E.
      destruct (deviates_step K E1) as (vec & Ec & ES & E2 & _).
      eapply An_dev; [exact Ec|exact ES|]. refine (IH _ _ _ _ _ E). exact (updated_inv (lk_ob K) E2).
  Qed.
  Lemma converse_total A (q : session T A) : (forall i p, exists r, create i p = Ok r) ->
    forall ob w, winv ob w -> exists a w', converse N create q w = Ok (a, w').
  Proof.
    intros CT. induction q as [a0|p k IH|p k IH]; intros ob w K; cbn [converse]; [eauto| |].
    - assert (F : exists v w1, fit_statistic N create w p = Ok (v, w1)).
      { unfold fit_statistic. destruct (CT (w_img w) p) as ([img vec] & Ec). rewrite Ec. cbn [bind].
        destruct (statistic_total K (SZ Ec)) as (o2 & v & ->). cbn [bind]. eauto. }
      destruct F as (v & w1 & F). rewrite F. cbn [bind fst snd]. destruct (fit_statistic_ok K F) as (vec & _ & _ & E2 & _).
      exact (IH _ ob w1 (updated_inv (lk_ob K) E2)).
    - assert (F : exists v w1, deviates N create w p = Ok (v, w1)).
      { unfold deviates. destruct (CT (w_img w) p) as ([img vec] & Ec). rewrite Ec. cbn [bind].
        destruct (deviates_total K (SZ Ec)) as (o2 & v & ->). cbn [bind]. eauto. }
      destruct F as (v & w1 & F). rewrite F. cbn [bind fst snd]. destruct (deviates_step K F) as (vec & _ & _ & E2 & _).
      exact (IH _ ob w1 (updated_inv (lk_ob K) E2)).
  Qed.

  (** ---- the bootstrap ---- *)
  Variable clock : Z.
  Variable draws : Z -> nat -> T.
  Variable fuel : nat.

  Lemma draw_pixel_ok f o' draw k n k' : draw_pixel N f o' draw k = Ok (n, k') -> n < List.length (weightVector o').
  Proof.
    revert k. induction f as [|f IH]; intros k E; [discriminate|]. cbn [draw_pixel] in E.
    destruct (ntrunc N _) as [z|]; [|discriminate]. apply bind_Ok in E. destruct E as (w & Eg & E).
    destruct (nltb N (nofZ N 0) w); [|exact (IH _ E)]. injection E as <- _.
    unfold getZ in Eg. destruct (z <? 0)%Z; [discriminate|]. apply get_Ok_iff in Eg. apply nth_error_Some. congruence.
  Qed.
  Lemma boot_sample_ok ob w w' : winv ob w -> boot_sample N draws fuel w = Ok w' -> exists ob', winv ob' w'.
  Proof.
    intros K E. unfold boot_sample in E. apply bind_Ok in E. destruct E as ([o2 k] & E1 & E). injection E as <-.
    unfold Fit_Model.MakeBootstrapSample in E1. apply bind_Ok in E1. destruct E1 as ([l k1] & E1 & E2). injection E2 as <- _.
    assert (NV : nValid (w_obj w) = n_usable N s) by (rewrite (lk_eq K), <- (p_nv P); destruct ob; reflexivity).
    assert (Q : List.length l = Z.to_nat (n_usable N s) /\ Forall (fun i => i < npix s) l).
    { rewrite <- NV. refine (@for_ok _ (fun i x => List.length (fst x) = i /\ Forall (fun i => i < npix s) (fst x)) _ _ _ (l, k1) _ _ E1).
      - split; [reflexivity|constructor].
      - intros i [la ka] [lb kb] _ (Q1 & Q2) Eb. cbn [fst] in *. apply bind_Ok in Eb. destruct Eb as ([n k'] & Ed & Eb). injection Eb as <- _.
        split; [rewrite app_length; cbn [List.length]; lia|]. apply Forall_app. split; [exact Q2|]. constructor; [|constructor].
        rewrite <- (lk_len K). exact (draw_pixel_ok Ed). }
    destruct Q as (Q1 & Q2). exists (Some l). unfold winv. cbn [w_obj].
    constructor.
    - rewrite (lk_eq K) at 1. destruct ob; reflexivity.
    - exact (lk_len K).
    - exact (lk_w K).
    - split; [|exact Q2]. rewrite Q1. rewrite Z2Nat.id; [reflexivity|]. unfold n_usable. lia.
  Qed.
  Definition rinv (w : res (world T IS)) : Prop := match w with Ok w => exists ob, winv ob w | _ => True end.
  Lemma refit_ok q p w : rinv w -> rinv (snd (refit N create q p w)).
  Proof.
    destruct w as [w| | |]; try (intros; exact I). intros (ob & K). cbn [refit].
    destruct (converse N create (q p) w) as [[[z p'] w1]| | |] eqn:E; try exact I. cbn [snd]. exists ob. exact (converse_ok K E).
  Qed.
  Lemma sample_inv w : rinv w -> rinv (do w <- w; boot_sample N draws fuel w).
  Proof.
    destruct w as [w| | |]; try (intros; exact I). intros (ob & K). cbn [bind].
    destruct (boot_sample N draws fuel w) as [w'| | |] eqn:E; try exact I. exact (boot_sample_ok K E).
  Qed.
  Variables f4 g g5 : T -> str.
  Variable dec : nat -> str.
  Variable qsort : list T -> list T.
  Lemma bootstrap_inv ob op header b offset h lm nm r w l w' : winv ob w ->
    bootstrap N create f4 g g5 dec qsort clock draws fuel op header b offset h lm nm r w = Ok (l, w') -> exists ob', winv ob' w'.
  Proof.
    intros K E. unfold bootstrap in E. apply bind_Ok in E. destruct E as (bt & _ & E). apply bind_Ok in E. destruct E as (ni & _ & E).
    destruct (bt && (0 <? ni)%Z && negb (r_stopped r)); [|injection E as _ <-; eauto].
    apply bind_Ok in E. destruct E as (sv & _ & E). apply bind_Ok in E. destruct E as (nm' & _ & E). apply bind_Ok in E. destruct E as (sd & _ & E).
    apply bind_Ok in E. destruct E as (hd & _ & E). apply bind_Ok in E. destruct E as ([[[x1 x2] x3] x4] & EB & E).
    apply bind_Ok in E. destruct E as (w1 & E1 & E). injection E as _ <-. subst x4.
    change (rinv (Ok w1)). refine (@boot_keeps T N (res (world T IS)) rinv (boot_env N create clock draws fuel lm nm) _ _ _ _ _ _ _ _ _ _ _ _ _ _ _ _ _ _ _ _ _ _ _ EB).
    - intros seed x Hx. cbn [boot_env Boot_Model.init_genrand]. destruct x as [x| | |]; try exact I. destruct Hx as (ob1 & Hx). exists ob1. exact Hx.
    - intros x Hx. cbn [boot_env Boot_Model.UseBootstrap snd]. exact (sample_inv Hx).
    - intros x Hx. cbn [boot_env Boot_Model.MakeBootstrapSample]. exact (sample_inv Hx).
    - intros p x Hx. exact (refit_ok lm p Hx).
    - intros p x Hx. exact (refit_ok nm p Hx).
    - exists ob. exact K.
  Qed.
  End Run.
End Like.
