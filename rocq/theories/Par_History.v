From Coq Require Import ZArith List Bool Arith Lia Permutation Reals Lra.
From Verif Require Import Base Num Sums Params_Model Params_Spec Params_Proof Conv_Model Downsample_Model Image_Model Image_Spec Image_Proof Par_Model Par_Spec Par_Proof Par_Flux Par_Image.
Import ListNotations.
Set Implicit Arguments.
Unset Strict Implicit.

Section History.
Variable T : Type.
Variable N : Num T.
Variable r2c : nat -> nat -> list T -> list (T * T).
Variable c2r : nat -> nat -> list (T * T) -> list T.

Lemma convolve_total_length pl v : length (convolve_total N r2c c2r pl v) = length v.
Proof. unfold convolve_total. destruct (ConvolveImage N r2c c2r pl v) as [v'| | |] eqn:E; [exact (convolve_length E)|reflexivity..]. Qed.
Lemma built_regions m : built N r2c c2r m -> forall ri, In ri (mo_regions m) -> forall v, length (ri_convolve ri v) = length v.
Proof.
  intros B. induction B as [funcs flags psf interp w h code m E|m psf bicubic x1 x2 y1 y2 scale code m' B IH E].
  - unfold SetupModelImage in E. destruct (_ && _)%bool in E; [|discriminate E]. destruct psf as [p|].
    + apply bind_Ok in E. destruct E as ([[result q] pl] & _ & E). destruct pl as [pl|]; apply Ok_inj in E; [|discriminate E]. injection E as _ <-. intros ri [].
    + apply Ok_inj in E. injection E as _ <-. intros ri [].
  - unfold AddOversampledPsfInfo in E. destruct (_ && _)%bool in E; [|discriminate E]. destruct (forallb _ _) in E; [|apply Ok_inj in E; injection E as _ <-; exact IH].
    cbv zeta in E. destruct (_ && _)%bool in E; [|discriminate E]. apply bind_Ok in E. destruct E as (reg & _ & E). apply bind_Ok in E. destruct E as ([[result q] pl] & _ & E).
    destruct pl as [pl|]; apply Ok_inj in E; injection E as _ <-; [|exact IH]. intros ri I v. cbn [mo_regions] in I. apply in_app_iff in I. destruct I as [I|[<-|[]]]; [exact (IH ri I v)|].
    cbn [ri_convolve]. apply convolve_total_length.
Qed.
Lemma set_len {A} (v v' : list A) i x : set v i x = Ok v' -> length v' = length v.
Proof. unfold set. destruct (Nat.ltb _ _); [|discriminate]. intros E. apply Ok_inj in E. subst v'. apply upd_length. Qed.
Lemma down_len a b c d e v f g h i j k l v' : DownsampleAndReplace N a b c d e v f g h i j k l = Ok v' -> length v' = length v.
Proof.
  unfold DownsampleAndReplace. destruct (_ =? _)%Z; [discriminate|]. cbv zeta. unfold forZ at 1. intros E.
  refine (@for_ok _ (fun _ w => length w = length v) _ _ _ _ eq_refl _ E). intros q w w' _ Lw Eq.
  unfold forZ at 1 in Eq. refine (@for_ok _ (fun _ w => length w = length v) _ _ _ _ Lw _ Eq). intros q' u u' _ Lu Eu.
  apply bind_Ok in Eu. destruct Eu as (flux & _ & Eu). unfold setZ in Eu. destruct (_ <? _)%Z in Eu; [discriminate Eu|]. rewrite (set_len Eu). exact Lu.
Qed.
Lemma region_len r cv fs pts v v' : ComputeRegionAndDownsample N r cv fs pts v = Ok v' -> length v' = length v.
Proof. unfold ComputeRegionAndDownsample. cbv zeta. apply down_len. Qed.
Variable m : model T.
Lemma regions_len su st st' : regions_step N m su st = Ok st' -> length (st_vec st') = length (st_vec st).
Proof.
  unfold regions_step. intros E. refine (@for_ok _ (fun _ s => length (st_vec s) = length (st_vec st)) _ _ _ _ eq_refl _ E). intros q w w' _ Lw Eq.
  apply bind_Ok in Eq. destruct Eq as (ri & _ & Eq). cbv zeta in Eq. apply bind_Ok in Eq. destruct Eq as (v & Ev & Eq). apply Ok_inj in Eq. subst w'. cbn [st_vec]. rewrite (region_len Ev). exact Lw.
Qed.
Lemma create_len st p st' : length (st_vec st) = nModelVals m -> CreateModelImage N r2c c2r m st p = Ok st' -> length (st_vec st') = nModelVals m.
Proof.
  intros Lv E. unfold CreateModelImage in E. apply bind_Ok in E. destruct E as (su & _ & E). cbv zeta in E.
  pose proof (@seq_loop T N m (fobjs N m su st) false false (st_vec st) Lv) as E1. cbv zeta in E1. cbn [bind] in E1. rewrite E1 in E. cbn [bind] in E.
  set (v1 := pixel_image _ _ _ _ _ _ _ _) in E. assert (L1 : length v1 = nModelVals m) by (unfold v1, pixel_image; rewrite map_length, combine_length, seq_length; lia).
  apply bind_Ok in E. destruct E as (v2 & E2 & E).
  assert (L2 : length v2 = nModelVals m). { destruct (mo_psf m) as [[[c r] pl]|]; [rewrite (convolve_length E2); exact L1|apply Ok_inj in E2; subst v2; exact L1]. }
  apply bind_Ok in E. destruct E as (st1 & E3 & E). rewrite (regions_len E). destruct (existsb is_point (mo_funcs m)); [|apply Ok_inj in E3; subst st1; exact L2].
  pose proof (fun x => @seq_loop T N m x true true v2 L2) as X. cbv zeta in X. rewrite X in E3. cbn [bind] in E3. apply Ok_inj in E3. subst st1. cbn [st_vec]. unfold pixel_image. rewrite map_length, combine_length, seq_length. lia.
Qed.
Lemma regions1_len idx su st st' : regions_step1 N m idx su st = Ok st' -> length (st_vec st') = length (st_vec st).
Proof.
  unfold regions_step1. intros E. apply bind_Ok in E. destruct E as (f & _ & E). refine (@for_ok _ (fun _ s => length (st_vec s) = length (st_vec st)) _ _ _ _ eq_refl _ E). intros q w w' _ Lw Eq.
  apply bind_Ok in Eq. destruct Eq as (ri & _ & Eq). apply bind_Ok in Eq. destruct Eq as (i0 & _ & Eq). apply bind_Ok in Eq. destruct Eq as (z0 & _ & Eq). cbv zeta in Eq.
  apply bind_Ok in Eq. destruct Eq as (fo & _ & Eq). apply bind_Ok in Eq. destruct Eq as (fo' & _ & Eq). apply bind_Ok in Eq. destruct Eq as (v & Ev & Eq). apply Ok_inj in Eq. subst w'. cbn [st_vec]. rewrite (region_len Ev). exact Lw.
Qed.
Lemma single_len st p idx out st' : length (st_vec st) = nModelVals m -> GetSingleFunctionImage N r2c c2r m st p idx = Ok (out, st') -> length (st_vec st') = nModelVals m.
Proof.
  intros Lv E. unfold GetSingleFunctionImage in E. destruct (forallb _ _); [|discriminate E]. apply bind_Ok in E. destruct E as (su & _ & E). apply bind_Ok in E. destruct E as (f & _ & E). cbv zeta in E.
  set (st1 := if is_point f then _ else st) in E. assert (L1 : length (st_vec st1) = nModelVals m) by (unfold st1; destruct (is_point f); exact Lv).
  apply bind_Ok in E. destruct E as (fo & _ & E). rewrite (seq_rows N fo L1) in E. fold (@row_image T N m fo (st_vec st1)) in E. cbn [bind] in E. set (v1 := row_image N m fo (st_vec st1)) in E.
  assert (Lv1 : length v1 = nModelVals m) by (unfold v1; apply row_image_length; exact L1).
  apply bind_Ok in E. destruct E as (v2 & E2 & E). apply bind_Ok in E. destruct E as (st2 & E3 & E). apply bind_Ok in E. destruct E as (o & _ & E). apply Ok_inj in E. injection E as _ <-.
  rewrite (regions1_len E3). cbn [st_vec]. destruct (mo_psf m) as [[[c r] pl]|]; [|apply Ok_inj in E2; subst v2; exact Lv1].
  destruct (is_point f); [apply Ok_inj in E2; subst v2; exact Lv1|rewrite (convolve_length E2); exact Lv1].
Qed.
Variable nThreads chunk : nat.
Hypothesis Hthreads : 0 < nThreads.
Hypothesis Hbuilt : built N r2c c2r m.
Lemma perform_len st c st' : length (st_vec st) = nModelVals m -> perform N r2c c2r m st c = Ok st' -> length (st_vec st') = nModelVals m.
Proof.
  intros L E. destruct c as [p|p idx]; cbn in E; [exact (create_len L E)|]. apply bind_Ok in E. destruct E as ([o s] & E & E2). apply Ok_inj in E2. subst st'. exact (single_len L E).
Qed.
Lemma history_ok cs : forall st, length (st_vec st) = nModelVals m ->
  upto (par_history N nThreads chunk r2c c2r m st cs) (history N r2c c2r m st (map (@the_call T) cs)).
Proof.
  induction cs as [|c cs IH]; intros st L; cbn [par_history map history]; [apply upto_refl|].
  apply upto_bind; [|intros st' E; apply IH; exact (perform_len L E)].
  destruct c as [p s1 s2 scheds|p idx s1 scheds]; cbn [the_call perform].
  - apply create_ok; [exact Hthreads|exact (built_regions Hbuilt)|exact L].
  - apply upto_bind; [|intros x _; apply upto_refl]. apply single_ok; [exact Hthreads|exact (built_regions Hbuilt)|exact L].
Qed.
Lemma history_exists cs : forall st, length (st_vec st) = nModelVals m ->
  exists pcs, map (@the_call T) pcs = cs /\ par_history N nThreads chunk r2c c2r m st pcs = history N r2c c2r m st cs.
Proof.
  induction cs as [|c cs IH]; intros st L; [exists []; split; reflexivity|].
  assert (X : exists pc, the_call pc = c /\ (match pc with
      | ParImage p s1 s2 scheds => par_CreateModelImage N nThreads chunk r2c c2r m st p s1 s2 scheds
      | ParSingle p idx s1 scheds => do r <- par_GetSingleFunctionImage N nThreads chunk r2c c2r m st p idx s1 scheds; Ok (snd r)
      end) = perform N r2c c2r m st c).
  { destruct c as [p|p idx].
    - destruct (@create_exists T N nThreads chunk Hthreads r2c c2r m (built_regions Hbuilt) st p L) as (s1 & s2 & scheds & E). exists (ParImage p s1 s2 scheds). split; [reflexivity|exact E].
    - destruct (@single_exists T N nThreads chunk Hthreads r2c c2r m (built_regions Hbuilt) st p idx L) as (s1 & scheds & E). exists (ParSingle p idx s1 scheds). split; [reflexivity|]. cbn [perform]. rewrite E. reflexivity. }
  destruct X as (pc & <- & E). destruct (perform N r2c c2r m st (the_call pc)) as [st'| | |] eqn:P.
  - destruct (IH st' (perform_len L P)) as (pcs & <- & E2). exists (pc :: pcs). split; [reflexivity|]. cbn [par_history history]. rewrite E, P. cbn [bind]. exact E2.
  - exists (pc :: map (fun c => match c with EvalImage p => ParImage p [] [] [] | EvalSingle p idx => ParSingle p idx [] [] end) cs). split.
    + cbn [map]. f_equal. clear. induction cs as [|[p|p idx] cs IH]; [reflexivity|cbn; f_equal; exact IH..].
    + cbn [par_history history]. rewrite E, P. reflexivity.
  - exists (pc :: map (fun c => match c with EvalImage p => ParImage p [] [] [] | EvalSingle p idx => ParSingle p idx [] [] end) cs). split.
    + cbn [map]. f_equal. clear. induction cs as [|[p|p idx] cs IH]; [reflexivity|cbn; f_equal; exact IH..].
    + cbn [par_history history]. rewrite E, P. reflexivity.
  - exists (pc :: map (fun c => match c with EvalImage p => ParImage p [] [] [] | EvalSingle p idx => ParSingle p idx [] [] end) cs). split.
    + cbn [map]. f_equal. clear. induction cs as [|[p|p idx] cs IH]; [reflexivity|cbn; f_equal; exact IH..].
    + cbn [par_history history]. rewrite E, P. reflexivity.
Qed.
End History.
