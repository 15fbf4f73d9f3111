(** Exact-arithmetic facts about weights and fit statistics. *)
From Coq Require Import Reals ZArith List Bool Lia Lra.
From Verif Require Import Base Num Sums Stats_Model Stats_Spec Stats_Proof Fit_Model Fit_Spec Fit_Proof.
Import ListNotations.
Set Implicit Arguments. Unset Strict Implicit.
Local Open Scope R_scope.

Lemma R01 : nltb NumR (nofZ NumR 0) (nofZ NumR 1) = true. Proof. apply Rltb_true. simpl. lra. Qed.
Lemma R00 : nltb NumR (nofZ NumR 0) (nofZ NumR 0) = false. Proof. apply Rltb_false. simpl. lra. Qed.
Notation pr := (@prepared R NumR).

Lemma rprepare_ok s : well_formed NumR s -> exists st o, prepare NumR s = Ok (st, o) /\ pr s st o.
Proof. apply prepare_ok; [apply R01|apply R00]. Qed.
Lemma rprepared s st o : well_formed NumR s -> prepare NumR s = Ok (st, o) -> pr s st o.
Proof. intros W E. destruct (rprepare_ok W) as (st' & o' & E' & P). rewrite E in E'. injection E' as -> ->. exact P. Qed.

Lemma r_usable s z : usable NumR s z = user_good NumR s z.
Proof. unfold usable. cbn [nfin NumR]. destruct (user_errors s); now rewrite !andb_true_r. Qed.
Lemma r_clean s z : clean_data NumR s z = at_ NumR (s_data s) z. Proof. reflexivity. Qed.

Lemma rw_good s st o z : pr s st o -> (z < npix s)%nat -> user_good NumR s z = true -> at_ NumR (weightVector o) z = given_weight NumR s z.
Proof. intros P Hz U. rewrite <- r_usable in U. rewrite (p_w1 P Hz U). cbn [nfin NumR negb andb nmul nofZ]. apply Rmult_1_l. Qed.
Lemma rw_bad s st o z : pr s st o -> (z < npix s)%nat -> user_good NumR s z = false -> at_ NumR (weightVector o) z = 0.
Proof. intros P Hz U. rewrite <- r_usable in U. destruct (p_w0 P Hz U) as (x & E). rewrite E. cbn [nfin NumR negb andb nmul nofZ]. apply Rmult_0_l. Qed.

(** the weight used, in closed form *)
Definition final_weight (s : setup R) (mv : list R) (z : nat) : R :=
  if user_good NumR s z then
    match s_stat s with
    | ChiModelErrors => 1 / sqrt (noise_sq NumR s (model_at NumR s mv z + s_sky s))
    | _ => given_weight NumR s z
    end
  else 0.
Lemma used_final s st o mv z : pr s st o -> (z < npix s)%nat -> used_weight NumR s o mv z = final_weight s mv z.
Proof.
  intros P Hz. unfold used_weight, final_weight. rewrite r_usable. destruct (user_good NumR s z) eqn:U.
  - rewrite (rw_good P Hz U). destruct (s_stat s); reflexivity.
  - rewrite (rw_bad P Hz U). destruct (s_stat s); reflexivity.
Qed.

Lemma sq_map {A} (f g : A -> R) l : (forall x, In x l -> f x * f x = g x) -> sum_of_squares (map f l) = rsuml (map g l).
Proof.
  intros H. unfold sum_of_squares. rewrite map_map. f_equal. apply map_ext_in. exact H.
Qed.

Section S.
Variables (s : setup R) (st : Z) (o : mobj R) (mv : list R) (ob : option (list nat)).
Hypothesis P : pr s st o.
Hypothesis L : length mv = model_size s.
Hypothesis R : resample_ok NumR s ob.
Lemma r_pixels z : In z (pixels s ob) -> (z < npix s)%nat.
Proof. intros I. destruct (resampled_frame P R) as (_ & _ & _ & Q). now apply Q. Qed.

Lemma r_deviates y : length y = length (pixels s ob) ->
  exists o', ComputeDeviates NumR (resampled o ob) mv y 0 = Ok (o', map (deviate NumR s o mv) (pixels s ob)).
Proof.
  intros Ly. destruct (@deviates_ok _ NumR R01 R00 s st o mv ob y 0%nat P L R) as (o' & E); [lia|].
  exists o'. rewrite E. cbn [firstn app Nat.add]. rewrite <- Ly, skipn_all, app_nil_r. reflexivity.
Qed.
Lemma r_stat_chi : chi_statistic s -> exists o', GetFitStatistic NumR (resampled o ob) mv
   = Ok (o', mp_enorm NumR (map (deviate NumR s o mv) (pixels s ob)) * mp_enorm NumR (map (deviate NumR s o mv) (pixels s ob))).
Proof.
  intros C. destruct (chi_ok R01 R00 P L R C) as (o' & E). exists o'. unfold GetFitStatistic.
  replace (useCash (resampled o ob)) with (useCash o) by (destruct ob; reflexivity). rewrite (p_uc P).
  unfold chi_statistic in C. destruct (s_stat s); try contradiction; exact E.
Qed.
Lemma r_stat_cash : ~ chi_statistic s -> GetFitStatistic NumR (resampled o ob) mv
   = Ok (resampled o ob, 2 * rsuml (map (fun z => final_weight s mv z * pixel_term NumR s mv z) (pixels s ob))).
Proof.
  intros C. unfold GetFitStatistic.
  replace (useCash (resampled o ob)) with (useCash o) by (destruct ob; reflexivity). rewrite (p_uc P).
  rewrite (cash_ok P L R C).
  assert (E : fold_left (nadd NumR) (map (fun z => nmul NumR (used_weight NumR s o mv z) (pixel_term NumR s mv z)) (pixels s ob)) (nofZ NumR 0)
     = rsuml (map (fun z => final_weight s mv z * pixel_term NumR s mv z) (pixels s ob))).
  { change (nadd NumR) with Rplus. rewrite fold_left_rsuml. rewrite Rplus_0_l. f_equal. apply map_ext_in. intros z I.
    cbn [nmul NumR]. now rewrite (used_final mv P (r_pixels I)). }
  rewrite E. unfold chi_statistic in C. destruct (s_stat s); try (exfalso; apply C; exact I); reflexivity.
Qed.
Lemma r_dev_chi z : chi_statistic s -> In z (pixels s ob) ->
  deviate NumR s o mv z = final_weight s mv z * (at_ NumR (s_data s) z - model_at NumR s mv z).
Proof.
  intros C I. unfold deviate. rewrite (used_final mv P (r_pixels I)).
  unfold chi_statistic in C. destruct (s_stat s); try contradiction; reflexivity.
Qed.
Lemma r_dev_pmlr z : s_stat s = PMLR -> In z (pixels s ob) ->
  deviate NumR s o mv z * deviate NumR s o mv z = 2 * final_weight s mv z * Rabs (pixel_term NumR s mv z).
Proof.
  intros Es I. unfold deviate. rewrite (used_final mv P (r_pixels I)), Es.
  cbn [nsqrt nmul nofZ nabs NumR]. apply sqrt_sqrt. apply Rmult_le_pos; [|apply Rabs_pos].
  assert (0 <= final_weight s mv z); [|lra]. unfold final_weight, given_weight. rewrite Es. destruct (user_good NumR s z); simpl; lra.
Qed.
End S.

Lemma sumsq_nonneg l : 0 <= sum_of_squares l. Proof. apply sq_nonneg. Qed.

(** C28, chi-squared *)
Lemma lm_chi s st o mv ob y : well_formed NumR s -> chi_statistic s -> prepare NumR s = Ok (st, o) ->
  length mv = model_size s -> resample_ok NumR s ob -> length y = length (pixels s ob) ->
  exists o1 o2 dev f,
    ComputeDeviates NumR (resampled o ob) mv y 0 = Ok (o1, dev) /\
    GetFitStatistic NumR (resampled o ob) mv = Ok (o2, f) /\
    dev = map (fun z => final_weight s mv z * (at_ NumR (s_data s) z - model_at NumR s mv z)) (pixels s ob) /\
    sum_of_squares dev - INR (length dev) * (3834 / IZR (10 ^ 23) * (3834 / IZR (10 ^ 23))) <= f <= sum_of_squares dev /\
    ((Forall (fun a => Rabs a < 13040000000000000000 / INR (length dev)) dev \/
      Forall (fun a => a = 0 \/ 3834 / IZR (10 ^ 23) < Rabs a) dev) -> f = sum_of_squares dev).
Proof.
  intros W C E L R Ly. pose proof (rprepared W E) as P.
  destruct (r_deviates P L R Ly) as (o1 & E1). destruct (r_stat_chi P L R C) as (o2 & E2).
  set (dev := map (deviate NumR s o mv) (pixels s ob)) in *.
  exists o1, o2, dev, (mp_enorm NumR dev * mp_enorm NumR dev).
  split; [exact E1|]. split; [exact E2|]. split.
  { unfold dev. apply map_ext_in. intros z I. now apply (r_dev_chi mv P R C). }
  pose proof (mp_enorm_bounds dev) as ((B1 & B2) & B3). split.
  - split; [exact B3|]. rewrite <- (sqrt_sqrt (sum_of_squares dev)) by apply sumsq_nonneg. apply Rmult_le_compat; auto.
  - intros H. rewrite (mp_enorm_exact H). apply sqrt_sqrt, sumsq_nonneg.
Qed.

(** ---- C31: the Poisson likelihood ratio ---- *)
Lemma ln_le_sub1 t : 0 < t -> ln t <= t - 1 /\ (ln t = t - 1 -> t = 1).
Proof.
  intros Ht. destruct (Req_dec (ln t) 0) as [Z|NZ].
  - assert (t = 1) by (rewrite <- (exp_ln t), Z, exp_0 by auto; reflexivity). subst. rewrite ln_1. split; [lra|auto].
  - pose proof (exp_ineq1 (ln t) NZ) as Q. rewrite exp_ln in Q by auto. split; [lra|]. intros. lra.
Qed.
Lemma pmlr_nonneg M D : 0 < M -> 0 <= D -> 0 <= pmlr_term M D /\ (pmlr_term M D = 0 <-> M = D).
Proof.
  intros HM HD. unfold pmlr_term. destruct (Req_EM_T D 0) as [->|ND].
  - split; [lra|]. split; intros; lra.
  - assert (HD' : 0 < D) by lra. assert (Ht : 0 < M / D) by (apply Rdiv_lt_0_compat; auto).
    assert (LL : ln (D / M) = - ln (M / D)).
    { rewrite <- ln_Rinv by auto. f_equal. field. lra. }
    rewrite LL. destruct (ln_le_sub1 Ht) as (A & B).
    assert (EE : M - D + D * - ln (M / D) = D * (M / D - 1 - ln (M / D))) by (field; lra).
    rewrite EE. split.
    + apply Rmult_le_pos; [lra|]. apply Rmult_le_pos; lra.
    + split.
      * intros Z. assert (M / D - 1 - ln (M / D) = 0) by (apply Rmult_eq_reg_l with D; lra).
        assert (M / D = 1) by (apply B; lra). apply Rmult_eq_reg_r with (/ D); [|apply Rinv_neq_0_compat; lra].
        rewrite Rinv_r by lra. exact H0.
      * intros ->. replace (D / D) with 1 by (field; lra). rewrite ln_1. lra.
Qed.

Lemma pixel_pmlr s mv z : s_stat s = PMLR ->
  0 < counts NumR s (model_at NumR s mv z) -> 0 <= counts NumR s (at_ NumR (s_data s) z) ->
  2 * pixel_term NumR s mv z = pmlr_term (counts NumR s (model_at NumR s mv z)) (counts NumR s (at_ NumR (s_data s) z)).
Proof.
  intros Es HM HD. unfold pixel_term, data_term, log_counts, pmlr_term. rewrite Es, r_clean.
  set (M := counts NumR s (model_at NumR s mv z)) in *. set (D := counts NumR s (at_ NumR (s_data s) z)) in *.
  cbn [nadd nsub nmul nleb nofZ nlog NumR].
  assert (E1 : Rleb M 0 = false) by (apply Rleb_false; auto). rewrite E1.
  destruct (Req_EM_T D 0) as [Z|ND].
  - assert (E2 : Rleb D 0 = true) by (apply Rleb_true; lra). rewrite E2, Z. lra.
  - assert (E2 : Rleb D 0 = false) by (apply Rleb_false; lra). rewrite E2.
    unfold Rdiv. rewrite ln_mult, ln_Rinv by (auto using Rinv_0_lt_compat; lra). ring.
Qed.

Definition positive_counts (s : setup R) (mv : list R) (ob : option (list nat)) : Prop :=
  forall z, In z (pixels s ob) -> user_good NumR s z = true ->
    0 < counts NumR s (model_at NumR s mv z) /\ 0 <= counts NumR s (at_ NumR (s_data s) z).

Lemma pmlr_stat s st o mv ob y : well_formed NumR s -> s_stat s = PMLR -> prepare NumR s = Ok (st, o) ->
  length mv = model_size s -> resample_ok NumR s ob -> length y = length (pixels s ob) -> positive_counts s mv ob ->
  exists o1 o2 dev f,
    ComputeDeviates NumR (resampled o ob) mv y 0 = Ok (o1, dev) /\
    GetFitStatistic NumR (resampled o ob) mv = Ok (o2, f) /\
    f = sum_of_squares dev /\
    f = rsuml (map (fun z => if user_good NumR s z then pmlr_term (counts NumR s (model_at NumR s mv z)) (counts NumR s (at_ NumR (s_data s) z)) else 0)
                 (pixels s ob)).
Proof.
  intros W Es E L R Ly PC. pose proof (rprepared W E) as P.
  destruct (r_deviates P L R Ly) as (o1 & E1).
  assert (C : ~ chi_statistic s) by (unfold chi_statistic; now rewrite Es).
  pose proof (r_stat_cash P L R C) as E2. eexists o1, _, _, _. split; [exact E1|]. split; [exact E2|].
  assert (T : forall z, In z (pixels s ob) -> 2 * (final_weight s mv z * pixel_term NumR s mv z)
     = if user_good NumR s z then pmlr_term (counts NumR s (model_at NumR s mv z)) (counts NumR s (at_ NumR (s_data s) z)) else 0).
  { intros z I. unfold final_weight, given_weight. rewrite Es. destruct (user_good NumR s z) eqn:U; [|ring].
    destruct (PC z I U). rewrite <- pixel_pmlr by auto. cbn [nofZ NumR]. ring. }
  assert (S : forall (f : nat -> RbaseSymbolsImpl.R) l, 2 * rsuml (map f l) = rsuml (map (fun z => 2 * f z) l)).
  { intros f l. unfold rsuml. induction l as [|a l IH]; cbn [map fold_right]; [ring|]. rewrite <- IH. ring. }
  rewrite S. split.
  - symmetry. apply sq_map. intros z I. rewrite (r_dev_pmlr mv P R Es I).
    assert (Q : 0 <= 2 * (final_weight s mv z * pixel_term NumR s mv z)).
    { rewrite (T z I). destruct (user_good NumR s z) eqn:U; [|lra]. destruct (PC z I U). now apply pmlr_nonneg. }
    assert (FW : final_weight s mv z = 0 \/ final_weight s mv z = 1).
    { unfold final_weight, given_weight. rewrite Es. destruct (user_good NumR s z); simpl; auto. }
    destruct FW as [-> | F1]; [ring|]. rewrite F1 in *. rewrite Rabs_pos_eq by lra. ring.
  - f_equal. apply map_ext_in. exact T.
Qed.

(** the same inputs with another statistic *)
Definition with_stat (s : setup R) (k : statistic R) : setup R :=
  mkSetup (s_cols s) (s_rows s) (s_data s) (s_psf s) (s_gain s) (s_readNoise s) (s_expTime s) (s_nCombined s) (s_sky s) (s_mask s) k.

Lemma pmlr_vs_cash s st1 st2 o1 o2 mv ob : well_formed NumR (with_stat s PMLR) ->
  prepare NumR (with_stat s PMLR) = Ok (st1, o1) -> prepare NumR (with_stat s Cash) = Ok (st2, o2) ->
  length mv = model_size s -> resample_ok NumR (with_stat s PMLR) ob ->
  exists p c, GetFitStatistic NumR (resampled o1 ob) mv = Ok (resampled o1 ob, p) /\
    GetFitStatistic NumR (resampled o2 ob) mv = Ok (resampled o2 ob, c) /\
    p - c = rsuml (map (fun z => if user_good NumR s z then 2 * data_term NumR (with_stat s PMLR) z else 0) (pixels s ob)).
Proof.
  intros W E1 E2 L R. assert (W2 : well_formed NumR (with_stat s Cash)) by exact W.
  pose proof (rprepared W E1) as P1. pose proof (rprepared W2 E2) as P2.
  assert (R2 : resample_ok NumR (with_stat s Cash) ob).
  { destruct ob as [b|]; [|exact I]. cbn [resample_ok] in *. destruct R as (R & F). split; [|exact F].
    rewrite R. reflexivity. }
  eexists _, _. split; [apply (r_stat_cash P1 L R); exact (fun x => x)|]. split; [apply (r_stat_cash P2 L R2); exact (fun x => x)|].
  change (pixels (with_stat s PMLR) ob) with (pixels s ob). change (pixels (with_stat s Cash) ob) with (pixels s ob).
  rewrite <- Rmult_minus_distr_l.
  assert (S : forall (f g h : nat -> RbaseSymbolsImpl.R) l, (forall z, 2 * (f z - g z) = h z) -> 2 * (rsuml (map f l) - rsuml (map g l)) = rsuml (map h l)).
  { intros f g h l H. unfold rsuml. induction l as [|a l IH]; cbn [map fold_right]; [ring|]. rewrite <- IH, <- H. ring. }
  apply S. intros z. unfold final_weight, given_weight. cbn [s_stat with_stat].
  change (user_good NumR (with_stat s PMLR) z) with (user_good NumR s z).
  change (user_good NumR (with_stat s Cash) z) with (user_good NumR s z).
  destruct (user_good NumR s z); [|ring].
  unfold pixel_term. cbn [s_stat with_stat].
  change (model_at NumR (with_stat s PMLR) mv z) with (model_at NumR s mv z).
  change (model_at NumR (with_stat s Cash) mv z) with (model_at NumR s mv z).
  change (counts NumR (with_stat s PMLR)) with (counts NumR s). change (counts NumR (with_stat s Cash)) with (counts NumR s).
  change (clean_data NumR (with_stat s PMLR) z) with (clean_data NumR s z). change (clean_data NumR (with_stat s Cash) z) with (clean_data NumR s z).
  unfold data_term at 2. cbn [s_stat with_stat nadd nsub nmul nofZ NumR]. ring.
Qed.

(** ---- C29 ---- *)
Lemma three_encodings (x : R) : 0 < x -> 1 / sqrt (x * x) = 1 / x /\ sqrt (1 / (x * x)) = 1 / x.
Proof.
  intros H. rewrite sqrt_square by lra. split; [reflexivity|].
  replace (1 / (x * x)) with ((1 / x) * (1 / x)) by (field; lra). apply sqrt_square.
  left. apply Rdiv_lt_0_compat; lra.
Qed.

Definition encodings (sig : list R) (e : list R) (ty : Z) : Prop :=
  (ty = 100%Z /\ e = sig) \/ (ty = 110%Z /\ e = map (fun x => x * x) sig) \/ (ty = 120%Z /\ e = map (fun x => 1 / (x * x)) sig).

Lemma enc_weight s sig e ty z : s_stat s = ChiUserErrors e ty -> encodings sig e ty -> Forall (fun x => 0 < x) sig ->
  (z < length sig)%nat -> given_weight NumR s z = 1 / at_ NumR sig z.
Proof.
  intros Es En F Hz. unfold given_weight. rewrite Es.
  assert (Pz : 0 < at_ NumR sig z) by (rewrite Forall_forall in F; apply F; now apply nth_In).
  destruct (three_encodings Pz) as (A & B).
  assert (MN : forall f : RbaseSymbolsImpl.R -> RbaseSymbolsImpl.R, at_ NumR (map f sig) z = f (at_ NumR sig z)).
  { intros f. unfold at_. rewrite (nth_indep (map f sig) (nofZ NumR 0) (f (nofZ NumR 0))) by (now rewrite map_length). apply map_nth. }
  destruct En as [(-> & ->)|[(-> & ->)|(-> & ->)]]; cbn [Z.eqb Pos.eqb]; rewrite ?MN; cbn [ndiv nofZ nsqrt NumR]; auto.
Qed.

Lemma enc_len sig e ty : encodings sig e ty -> length e = length sig /\ (ty = 100 \/ ty = 110 \/ ty = 120)%Z.
Proof. intros [(-> & ->)|[(-> & ->)|(-> & ->)]]; rewrite ?map_length; auto. Qed.

Lemma error_images s sig e ty st o mv ob : well_formed NumR s -> s_stat s = ChiUserErrors e ty -> encodings sig e ty ->
  Forall (fun x => 0 < x) sig -> prepare NumR s = Ok (st, o) -> length mv = model_size s -> resample_ok NumR s ob ->
  (forall z, (z < npix s)%nat -> at_ NumR (weightVector o) z = if user_good NumR s z then 1 / at_ NumR sig z else 0) /\
  exists o' , GetFitStatistic NumR (resampled o ob) mv
    = Ok (o', let chi := mp_enorm NumR (map (fun z => if user_good NumR s z then 1 / at_ NumR sig z * (at_ NumR (s_data s) z - model_at NumR s mv z) else 0) (pixels s ob)) in chi * chi).
Proof.
  intros W Es En F E L R. pose proof (rprepared W E) as P.
  assert (Ls : length sig = npix s).
  { destruct W as (_ & _ & We & _). rewrite Es in We. destruct We as (We & _). rewrite <- We. symmetry. now apply (enc_len En). }
  split.
  - intros z Hz. destruct (user_good NumR s z) eqn:U.
    + rewrite (rw_good P Hz U). apply (enc_weight Es En F). lia.
    + now apply (rw_bad P).
  - assert (C : chi_statistic s) by (unfold chi_statistic; rewrite Es; exact I).
    destruct (r_stat_chi P L R C) as (o' & E2). exists o'. rewrite E2.
    assert (M : map (deviate NumR s o mv) (pixels s ob) = map (fun z => if user_good NumR s z then 1 / at_ NumR sig z * (at_ NumR (s_data s) z - model_at NumR s mv z) else 0) (pixels s ob)).
    { apply map_ext_in. intros z Iz. rewrite (r_dev_chi mv P R C Iz). unfold final_weight.
      destruct (user_good NumR s z) eqn:U; [|ring]. rewrite Es. f_equal. apply (enc_weight Es En F).
      pose proof (r_pixels P R Iz). lia. }
    now rewrite M.
Qed.

