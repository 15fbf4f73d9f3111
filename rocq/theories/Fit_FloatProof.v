(** Binary64 facts about masks, weights, statistics and bootstrap samples. *)
From Coq Require Import Reals ZArith List Bool Lia Lra.
From Flocq Require Import Core.Core IEEE754.BinarySingleNaN.
From Verif Require Import Base Num FloatFacts Stats_Model Stats_Proof MT_Model MT_Spec MT_Proof MT_FloatProof Fit_Model Fit_Spec Fit_Proof.
Import ListNotations.
Set Implicit Arguments. Unset Strict Implicit.
Local Open Scope nat_scope.

Lemma F01 m : nltb (NumF m) (nofZ (NumF m) 0) (nofZ (NumF m) 1) = true. Proof. vm_compute. reflexivity. Qed.
Lemma F00 m : nltb (NumF m) (nofZ (NumF m) 0) (nofZ (NumF m) 0) = false. Proof. vm_compute. reflexivity. Qed.
Lemma f0_shape : f_ofZ 0 = B754_zero false.
Proof. apply B2SF_inj. vm_compute. reflexivity. Qed.
Lemma one_shape : exists H, f_ofZ 1 = B754_finite false 4503599627370496 (-52) H.
Proof.
  assert (E : B2SF (f_ofZ 1) = SpecFloat.S754_finite false 4503599627370496 (-52)) by (vm_compute; reflexivity).
  destruct (f_ofZ 1) as [s|s| |s mm e H]; cbn [B2SF] in E; try discriminate. injection E. intros -> -> ->. eauto.
Qed.
Lemma two_shape : exists H, f_ofZ 2 = B754_finite false 4503599627370496 (-51) H.
Proof.
  assert (E : B2SF (f_ofZ 2) = SpecFloat.S754_finite false 4503599627370496 (-51)) by (vm_compute; reflexivity).
  destruct (f_ofZ 2) as [s|s| |s mm e H]; cbn [B2SF] in E; try discriminate. injection E. intros -> -> ->. eauto.
Qed.

Lemma f_mul_1_l (x : F64) : f_mul (f_ofZ 1) x = x.
Proof.
  assert (I1 : isf (f_ofZ 1) 1) by (apply (isf_ofZ 1); lia). destruct one_shape as (H1 & E1).
  destruct x as [s|s| |s mm e H].
  - rewrite E1. destruct s; reflexivity.
  - rewrite E1. destruct s; reflexivity.
  - rewrite E1. reflexivity.
  - set (x := B754_finite s mm e H). assert (Ix : isf x (B2R x)) by (split; reflexivity).
    assert (F : rnd (1 * B2R x) = B2R x) by (rewrite Rmult_1_l; apply rnd_exact, fmt_B2R).
    assert (P : isf (f_mul (f_ofZ 1) x) (B2R x)).
    { rewrite <- F. apply isf_mul; auto. rewrite F. apply abs_B2R_lt_emax. }
    destruct P as (P1 & P2). apply B2R_inj; auto.
    destruct (f_mul (f_ofZ 1) x) as [s'|s'| |s' mm' e' H'] eqn:E; try discriminate; auto.
    cbn [B2R] in P2. symmetry in P2. apply eq_0_F2R in P2. destruct s; discriminate.
Qed.

Lemma zero_mul (a y : F64) : is_zero a = true -> is_finite y = true -> is_zero (f_mul a y) = true.
Proof. destruct a as [s|s| |s mm e H]; try discriminate. destruct y as [t|t| |t n f G]; try discriminate; intros; destruct s, t; reflexivity. Qed.
Lemma zero_mul_fin (a y : F64) : is_zero a = true -> is_finite (f_mul a y) = true -> is_zero (f_mul a y) = true.
Proof.
  destruct a as [s|s| |s mm e H]; try discriminate. destruct y as [t|t| |t n f G]; intros _ F; try (destruct s, t; reflexivity); discriminate.
Qed.
Lemma zero_mul_same (a b y : F64) : is_zero a = true -> is_zero b = true -> same_value (f_mul a y) (f_mul b y).
Proof.
  destruct a as [s|s| |s mm e H]; try discriminate. destruct b as [t|t| |t n f G]; try discriminate.
  intros _ _. destruct y as [u|u| |u nn ff GG]; try (left; reflexivity); right; destruct s, t, u; split; reflexivity.
Qed.
Lemma two_zero (a : F64) : is_zero a = true -> is_zero (f_mul (f_ofZ 2) a) = true.
Proof. destruct two_shape as (H & E). rewrite E. destruct a as [s|s| |s mm e G]; try discriminate. destruct s; reflexivity. Qed.
Lemma sqrt_zero (a : F64) : is_zero a = true -> is_zero (f_sqrt a) = true.
Proof. destruct a as [s|s| |s mm e G]; try discriminate. destruct s; reflexivity. Qed.
Lemma same_refl (x : F64) : same_value x x. Proof. now left. Qed.
Lemma same_zeros (x y : F64) : is_zero x = true -> is_zero y = true -> same_value x y. Proof. now right. Qed.
Lemma same_abs (x y : F64) : same_value x y -> f_abs x = f_abs y.
Proof.
  intros [->|(A & B)]; [reflexivity|]. destruct x as [s|s| |s mm e G]; try discriminate. destruct y as [t|t| |t n f H]; try discriminate. reflexivity.
Qed.
Lemma same_add (x y u v : F64) : same_value x y -> same_value u v -> same_value (f_add x u) (f_add y v).
Proof.
  intros [->|(A & B)] [->|(C & D)].
  - left. reflexivity.
  - destruct u as [s|s| |s mm e G]; try discriminate. destruct v as [t|t| |t n f H]; try discriminate.
    destruct y as [w|w| |w nn ff GG]; try (left; reflexivity). right. destruct s, t, w; split; reflexivity.
  - destruct x as [s|s| |s mm e G]; try discriminate. destruct y as [t|t| |t n f H]; try discriminate.
    destruct v as [w|w| |w nn ff GG]; try (left; reflexivity). right. destruct s, t, w; split; reflexivity.
  - destruct x as [s|s| |s mm e G]; try discriminate. destruct y as [t|t| |t n f H]; try discriminate.
    destruct u as [w|w| |w nn ff GG]; try discriminate. destruct v as [r|r| |r nnn fff GGG]; try discriminate.
    right. destruct s, t, w, r; split; reflexivity.
Qed.
Lemma same_two (x y : F64) : same_value x y -> same_value (f_mul (f_ofZ 2) x) (f_mul (f_ofZ 2) y).
Proof. intros [->|(A & B)]; [left; reflexivity|]. right. split; now apply two_zero. Qed.

Lemma enorm_same m (l1 l2 : list F64) : Forall2 same_value l1 l2 -> mp_enorm (NumF m) l1 = mp_enorm (NumF m) l2.
Proof.
  intros F. assert (L : length l1 = length l2) by (induction F; cbn [length]; auto).
  unfold mp_enorm. rewrite L.
  assert (E : forall g st, fold_left (enorm_step (NumF m) g) l1 st = fold_left (enorm_step (NumF m) g) l2 st).
  { intros g. induction F as [|x y l1 l2 S F IH]; intros st; [reflexivity|]. cbn [fold_left].
    assert (E1 : enorm_step (NumF m) g st x = enorm_step (NumF m) g st y).
    { unfold enorm_step. destruct st. cbn [nabs NumF]. now rewrite (same_abs S). }
    rewrite E1. apply IH. cbn [length] in L. lia. }
  now rewrite E.
Qed.

Section F.
Variable m : Libm.
Notation N := (NumF m).
Notation pr := (@prepared F64 N).

Lemma fprepare_ok s : well_formed N s -> exists st o, prepare N s = Ok (st, o) /\ pr s st o.
Proof. apply prepare_ok; [apply F01|apply F00]. Qed.
Lemma fprepared s st o : well_formed N s -> prepare N s = Ok (st, o) -> pr s st o.
Proof. intros W E. destruct (fprepare_ok W) as (st' & o' & E' & P). rewrite E in E'. injection E' as -> ->. exact P. Qed.

Lemma w_good s st o z : pr s st o -> z < npix s -> usable N s z = true -> at_ N (weightVector o) z = given_weight N s z.
Proof.
  intros P Hz U. rewrite (p_w1 P Hz U). cbv zeta. change (neqb N (nofZ N 1) (nofZ N 0)) with (f_eqb (f_ofZ 1) (f_ofZ 0)).
  replace (f_eqb (f_ofZ 1) (f_ofZ 0)) with false by (vm_compute; reflexivity). rewrite andb_false_r. apply f_mul_1_l.
Qed.
Lemma w_bad s st o z : pr s st o -> z < npix s -> usable N s z = false -> is_zero (at_ N (weightVector o) z) = true.
Proof.
  intros P Hz U. destruct (p_w0 P Hz U) as (x & E). rewrite E. cbv zeta.
  replace (neqb N (nofZ N 0) (nofZ N 0)) with true by (vm_compute; reflexivity). rewrite andb_true_r.
  cbn [nmul nofZ nfin NumF]. destruct (is_finite (f_mul (f_ofZ 0) x)) eqn:F; cbn [negb].
  - apply zero_mul_fin; auto.
  - reflexivity.
Qed.

(** C30 *)
Lemma usable_weights s o : well_formed N s -> prepare N s = Ok (0%Z, o) ->
  (1 <= n_usable N s)%Z /\ nValid o = n_usable N s /\
  length (weightVector o) = npix s /\ length (dataVector o) = npix s /\
  (forall z, z < npix s -> is_finite (at_ N (dataVector o) z) = true) /\
  (forall z, z < npix s -> usable N s z = true ->
     at_ N (dataVector o) z = at_ N (s_data s) z /\
     at_ N (weightVector o) z = given_weight N s z /\ is_finite (given_weight N s z) = true /\
     f_leb (f_ofZ 0) (given_weight N s z) = true) /\
  (forall z, z < npix s -> usable N s z = false -> is_zero (at_ N (weightVector o) z) = true).
Proof.
  intros W E. pose proof (fprepared W E) as P. pose proof (p_st P) as S.
  destruct (n_usable N s <? 1)%Z eqn:E1; [discriminate|]. apply Z.ltb_ge in E1.
  destruct (weight_ok N s o) eqn:E2; [|discriminate]. unfold weight_ok in E2. rewrite forallb_forall in E2.
  split; [exact E1|]. split; [exact (p_nv P)|]. split; [exact (p_wl P)|]. split; [exact (p_dl P)|]. split; [|split].
  - intros z Hz. rewrite (p_d P Hz). destruct (nfin N (at_ N (s_data s) z)) eqn:Ef; [exact Ef|reflexivity].
  - intros z Hz U. assert (Ef : nfin N (at_ N (s_data s) z) = true).
    { unfold usable in U. apply andb_prop in U. destruct U as (U & _). now apply andb_prop in U. }
    split; [rewrite (p_d P Hz); now rewrite Ef|]. rewrite (w_good P Hz U).
    assert (Q := E2 z). rewrite in_seq in Q. specialize (Q ltac:(lia)). rewrite U, (w_good P Hz U) in Q. cbn [negb orb] in Q.
    apply andb_prop in Q. destruct Q as (Q1 & Q2). cbn [nfin nltb nofZ NumF] in Q1, Q2. split; [reflexivity|]. split; [exact Q1|].
    rewrite f_ltb_leb in Q2; [now rewrite negb_involutive in Q2|destruct (given_weight N s z); try discriminate; reflexivity|now rewrite f0_shape].
  - intros z Hz U. now apply (w_bad P).
Qed.

Lemma status_values s st o : well_formed N s -> prepare N s = Ok (st, o) ->
  (st = (-3)%Z <-> n_usable N s = 0%Z) /\
  (st = 0%Z \/ st = (-1)%Z \/ st = (-3)%Z) /\
  (st = (-1)%Z -> exists z, z < npix s /\ usable N s z = true /\
     (is_finite (given_weight N s z) = false \/ f_ltb (given_weight N s z) (f_ofZ 0) = true)).
Proof.
  intros W E. pose proof (fprepared W E) as P. pose proof (p_st P) as S.
  pose proof (cnt_bounds (usable N s) (npix s)) as B. change (cnt (usable N s) (npix s)) with (n_usable N s) in B.
  destruct (n_usable N s <? 1)%Z eqn:E1.
  - apply Z.ltb_lt in E1. subst st. split; [split; lia|]. split; [auto|]. discriminate.
  - apply Z.ltb_ge in E1. destruct (weight_ok N s o) eqn:E2; subst st; (split; [split; [discriminate|lia]|]); (split; [auto|]); [discriminate|].
    intros _. unfold weight_ok in E2.
    assert (X : exists z, In z (seq 0 (npix s)) /\ (negb (usable N s z) || (nfin N (at_ N (weightVector o) z) && negb (nltb N (at_ N (weightVector o) z) (nofZ N 0)))) = false).
    { clear - E2. induction (seq 0 (npix s)) as [|a l IH]; cbn [forallb] in E2; [discriminate|].
      apply andb_false_iff in E2. destruct E2 as [E2|E2]; [exists a; split; [now left|exact E2]|].
      destruct (IH E2) as (z & I & Q). exists z. split; [now right|exact Q]. }
    destruct X as (z & I & Q). rewrite in_seq in I. exists z. split; [lia|].
    apply orb_false_iff in Q. destruct Q as (Q1 & Q2). apply negb_false_iff in Q1. split; [exact Q1|].
    rewrite (w_good P) in Q2 by (auto; lia). apply andb_false_iff in Q2. destruct Q2 as [Q2|Q2]; [left; exact Q2|right].
    now apply negb_false_iff in Q2.
Qed.

(** C27 *)
Lemma diff_usable s1 s2 z : differ_only_where_masked N s1 s2 -> z < npix s1 ->
  npix s1 = npix s2 /\ user_good N s1 z = user_good N s2 z /\ user_errors s1 = user_errors s2 /\
  (user_good N s1 z = true -> given_weight N s1 z = given_weight N s2 z) /\ usable N s1 z = usable N s2 z.
Proof.
  intros (D1 & D2 & D3 & D4 & D5 & D6 & D7 & D8 & D9 & D10 & D11) Hz.
  assert (A : npix s1 = npix s2) by (unfold npix; now rewrite D1, D2).
  assert (B : user_good N s1 z = user_good N s2 z) by (unfold user_good; now rewrite D9).
  assert (G : total_gain N s1 = total_gain N s2) by (unfold total_gain; now rewrite D4, D6, D7).
  assert (C : user_errors s1 = user_errors s2).
  { unfold user_errors. destruct (s_stat s1), (s_stat s2); try contradiction; reflexivity. }
  assert (D : user_good N s1 z = true -> given_weight N s1 z = given_weight N s2 z).
  { intros U. unfold given_weight. specialize (D10 z Hz U). rewrite D10, D8.
    destruct (s_stat s1), (s_stat s2); try contradiction; try reflexivity.
    - destruct D11 as (-> & D11). now rewrite (D11 z Hz U).
    - unfold noise_sq. now rewrite G, D7, D5. }
  split; [exact A|]. split; [exact B|]. split; [exact C|]. split; [exact D|].
  unfold usable. rewrite <- B, <- C. destruct (user_good N s1 z) eqn:U; [|reflexivity].
  now rewrite (D10 z Hz U), (D eq_refl).
Qed.

Lemma diff_model s1 s2 mv z : differ_only_where_masked N s1 s2 -> model_at N s1 mv z = model_at N s2 mv z.
Proof. intros (D1 & D2 & D3 & _). unfold model_at. now rewrite D3, D1. Qed.

Lemma diff_term s1 s2 mv z : differ_only_where_masked N s1 s2 -> z < npix s1 -> user_good N s1 z = true ->
  pixel_term N s1 mv z = pixel_term N s2 mv z /\ clean_data N s1 z = clean_data N s2 z.
Proof.
  intros D Hz U. pose proof (diff_model mv z D) as MM.
  destruct D as (D1 & D2 & D3 & D4 & D5 & D6 & D7 & D8 & D9 & D10 & D11).
  assert (G : total_gain N s1 = total_gain N s2) by (unfold total_gain; now rewrite D4, D6, D7).
  assert (C : clean_data N s1 z = clean_data N s2 z) by (unfold clean_data; now rewrite (D10 z Hz U)).
  split; [|exact C]. unfold pixel_term, counts, data_term, counts. rewrite C, MM, G, D8, (D10 z Hz U).
  destruct (s_stat s1), (s_stat s2); try contradiction; reflexivity.
Qed.

Section Pair.
Variables (s1 s2 : setup F64) (st1 st2 : Z) (o1 o2 : mobj F64) (mv : list F64).
Hypothesis P1 : pr s1 st1 o1.
Hypothesis P2 : pr s2 st2 o2.
Hypothesis D : differ_only_where_masked N s1 s2.
Hypothesis TM : forall z, z < npix s1 -> user_good N s1 z = false ->
  is_finite (pixel_term N s1 mv z) = true /\ is_finite (pixel_term N s2 mv z) = true.

Lemma pair_w z : z < npix s1 ->
  used_weight N s1 o1 mv z = used_weight N s2 o2 mv z /\ usable N s1 z = true \/
  is_zero (used_weight N s1 o1 mv z) = true /\ is_zero (used_weight N s2 o2 mv z) = true /\ usable N s1 z = false.
Proof.
  intros Hz. destruct (diff_usable D Hz) as (A & B & C & W & U). pose proof (diff_model mv z D) as MM.
  assert (Hz2 : z < npix s2) by lia.
  unfold used_weight. destruct (usable N s1 z) eqn:U1.
  - left. split; [|reflexivity]. symmetry in U. rewrite (w_good P1 Hz U1), (w_good P2 Hz2 U), U, MM.
    assert (UG : user_good N s1 z = true) by (unfold usable in U1; destruct (user_good N s1 z); auto).
    rewrite (W UG). destruct D as (D1 & D2 & D3 & D4 & D5 & D6 & D7 & D8 & D9 & D10 & D11).
    assert (G : total_gain N s1 = total_gain N s2) by (unfold total_gain; now rewrite D4, D6, D7).
    destruct (s_stat s1), (s_stat s2); try contradiction; try reflexivity. unfold noise_sq. now rewrite G, D7, D5, D8.
  - right. symmetry in U. rewrite U. pose proof (w_bad P1 Hz U1). pose proof (w_bad P2 Hz2 U).
    destruct (s_stat s1), (s_stat s2); auto.
Qed.

Lemma fin_abs (x : F64) : is_finite (f_abs x) = is_finite x. Proof. destruct x; reflexivity. Qed.

Lemma pair_term z : z < npix s1 ->
  same_value (f_mul (used_weight N s1 o1 mv z) (pixel_term N s1 mv z)) (f_mul (used_weight N s2 o2 mv z) (pixel_term N s2 mv z)).
Proof.
  intros Hz. destruct (pair_w Hz) as [(W & U)|(W1 & W2 & U)].
  - assert (UG : user_good N s1 z = true) by (unfold usable in U; destruct (user_good N s1 z); auto).
    rewrite W. destruct (diff_term mv D Hz UG) as (-> & _). apply same_refl.
  - destruct (user_good N s1 z) eqn:UG.
    + destruct (diff_term mv D Hz UG) as (-> & _). now apply zero_mul_same.
    + destruct (TM Hz UG). apply same_zeros; now apply zero_mul.
Qed.
Lemma pair_dev z : s_stat s1 <> Cash -> z < npix s1 -> same_value (deviate N s1 o1 mv z) (deviate N s2 o2 mv z).
Proof.
  intros NC Hz. unfold deviate.
  assert (SS : match s_stat s1, s_stat s2 with Cash, Cash | PMLR, PMLR | ChiModelErrors, ChiModelErrors | ChiDataErrors, ChiDataErrors | ChiUserErrors _ _, ChiUserErrors _ _ => True | _, _ => False end).
  { destruct D as (_ & _ & _ & _ & _ & _ & _ & _ & _ & _ & D11). destruct (s_stat s1), (s_stat s2); auto. }
  pose proof (diff_model mv z D) as MM.
  assert (X : s_stat s1 <> PMLR -> s_stat s1 <> Cash ->
     same_value (nmul N (used_weight N s1 o1 mv z) (nsub N (clean_data N s1 z) (model_at N s1 mv z)))
                (nmul N (used_weight N s2 o2 mv z) (nsub N (clean_data N s2 z) (model_at N s2 mv z)))).
  { intros N1 N2. pose proof (pair_term Hz) as Q. unfold pixel_term in Q.
    destruct (s_stat s1), (s_stat s2); try contradiction; try congruence; exact Q. }
  assert (Y : s_stat s1 = PMLR -> same_value
      (nsqrt N (nmul N (nmul N (nofZ N 2) (used_weight N s1 o1 mv z)) (nabs N (pixel_term N s1 mv z))))
      (nsqrt N (nmul N (nmul N (nofZ N 2) (used_weight N s2 o2 mv z)) (nabs N (pixel_term N s2 mv z))))).
  { intros Es. destruct (pair_w Hz) as [(W & U)|(W1 & W2 & U)].
    - assert (UG : user_good N s1 z = true) by (unfold usable in U; destruct (user_good N s1 z); auto).
      rewrite W. destruct (diff_term mv D Hz UG) as (-> & _). apply same_refl.
    - cbn [nsqrt nmul nofZ nabs NumF]. apply two_zero in W1. apply two_zero in W2. destruct (user_good N s1 z) eqn:UG.
      + destruct (diff_term mv D Hz UG) as (-> & _). destruct (zero_mul_same (f_abs (pixel_term N s2 mv z)) W1 W2) as [->|(Z1 & Z2)].
        * apply same_refl.
        * apply same_zeros; now apply sqrt_zero.
      + destruct (TM Hz UG). apply same_zeros; apply sqrt_zero, zero_mul; auto; now rewrite fin_abs. }
  destruct (s_stat s1) eqn:E1, (s_stat s2) eqn:E2; try contradiction; try (apply Y; reflexivity); try (apply X; congruence).
Qed.

Lemma diff_npix : npix s1 = npix s2.
Proof. destruct D as (D1 & D2 & _). unfold npix. now rewrite D1, D2. Qed.
Lemma diff_n_usable : n_usable N s1 = n_usable N s2.
Proof.
  unfold n_usable. rewrite diff_npix. change (cnt (usable N s1) (npix s2) = cnt (usable N s2) (npix s2)).
  apply cnt_ext. intros z Hz. rewrite <- diff_npix in Hz. now destruct (diff_usable D Hz) as (_ & _ & _ & _ & U).
Qed.
Lemma pair_status : st1 = st2.
Proof.
  rewrite (p_st P1), (p_st P2), diff_n_usable. destruct (n_usable N s2 <? 1)%Z; [reflexivity|].
  assert (E : weight_ok N s1 o1 = weight_ok N s2 o2); [|now rewrite E].
  unfold weight_ok. rewrite diff_npix.
  assert (X : forall l, (forall z, In z l -> z < npix s1) ->
    forallb (fun z => negb (usable N s1 z) || (nfin N (at_ N (weightVector o1) z) && negb (nltb N (at_ N (weightVector o1) z) (nofZ N 0)))) l =
    forallb (fun z => negb (usable N s2 z) || (nfin N (at_ N (weightVector o2) z) && negb (nltb N (at_ N (weightVector o2) z) (nofZ N 0)))) l).
  { induction l as [|a l IH]; intros Hl; [reflexivity|]. cbn [forallb]. rewrite IH by (intros; apply Hl; now right). f_equal.
    assert (Ha : a < npix s1) by (apply Hl; now left). assert (Ha2 : a < npix s2) by (rewrite <- diff_npix; auto).
    destruct (diff_usable D Ha) as (_ & _ & _ & W & U). destruct (usable N s1 a) eqn:U1; rewrite <- U; [|reflexivity].
    assert (UG : user_good N s1 a = true) by (unfold usable in U1; destruct (user_good N s1 a); auto).
    rewrite (w_good P1 Ha U1), (w_good P2 Ha2 (eq_sym U)), (W UG). reflexivity. }
  apply X. intros z Hz. rewrite in_seq in Hz. rewrite diff_npix. lia.
Qed.

Lemma Forall2_map_in A B (R : B -> B -> Prop) (f g : A -> B) l : (forall x, In x l -> R (f x) (g x)) -> Forall2 R (map f l) (map g l).
Proof. intros H. induction l as [|a l IH]; cbn [map]; constructor; [apply H; now left|]. apply IH. intros; apply H. now right. Qed.

Lemma fold_same l1 l2 : Forall2 same_value l1 l2 -> forall a b, same_value a b -> same_value (fold_left f_add l1 a) (fold_left f_add l2 b).
Proof. induction 1 as [|x y l1 l2 S F IH]; intros a b H; [exact H|]. cbn [fold_left]. apply IH. now apply same_add. Qed.

Variable ob : option (list nat).
Hypothesis L : length mv = model_size s1.
Hypothesis R : resample_ok N s1 ob.
Lemma diff_pixels : pixels s1 ob = pixels s2 ob /\ resample_ok N s2 ob /\ length mv = model_size s2.
Proof.
  split; [destruct ob; cbn [pixels]; [reflexivity|now rewrite diff_npix]|]. split.
  - destruct ob; cbn [resample_ok] in *; [|exact I]. now rewrite <- diff_n_usable, <- diff_npix.
  - rewrite L. unfold model_size. rewrite diff_npix. destruct D as (-> & -> & -> & _). reflexivity.
Qed.
Lemma pixels_lt z : In z (pixels s1 ob) -> z < npix s1.
Proof. intros I. destruct (resampled_frame P1 R) as (_ & _ & _ & Q). now apply Q. Qed.

Lemma pair_stat : exists o1' o2' f1 f2,
  GetFitStatistic N (resampled o1 ob) mv = Ok (o1', f1) /\ GetFitStatistic N (resampled o2 ob) mv = Ok (o2', f2) /\ same_value f1 f2.
Proof.
  destruct diff_pixels as (E & R2 & L2). unfold GetFitStatistic.
  replace (useCash (resampled o1 ob)) with (useCash o1) by (destruct ob; reflexivity).
  replace (useCash (resampled o2 ob)) with (useCash o2) by (destruct ob; reflexivity).
  rewrite (p_uc P1), (p_uc P2).
  assert (SS : match s_stat s1, s_stat s2 with Cash, Cash | PMLR, PMLR | ChiModelErrors, ChiModelErrors | ChiDataErrors, ChiDataErrors | ChiUserErrors _ _, ChiUserErrors _ _ => True | _, _ => False end).
  { destruct D as (_ & _ & _ & _ & _ & _ & _ & _ & _ & _ & D11). destruct (s_stat s1), (s_stat s2); auto. }
  assert (CC : ~ chi_statistic s1 -> ~ chi_statistic s2 -> exists o1' o2' f1 f2,
    (do s <- CashStatistic N (resampled o1 ob) mv; Ok (resampled o1 ob, s)) = Ok (o1', f1) /\
    (do s <- CashStatistic N (resampled o2 ob) mv; Ok (resampled o2 ob, s)) = Ok (o2', f2) /\ same_value f1 f2).
  { intros C1 C2. rewrite (cash_ok P1 L R C1), (cash_ok P2 L2 R2 C2). cbn [bind]. eexists _, _, _, _. split; [reflexivity|]. split; [reflexivity|].
    apply same_two. apply fold_same; [|apply same_refl]. rewrite <- E. apply Forall2_map_in. intros z I. apply pair_term. now apply pixels_lt. }
  assert (XX : chi_statistic s1 -> chi_statistic s2 -> exists o1' o2' f1 f2,
    ChiSquared N (resampled o1 ob) mv = Ok (o1', f1) /\ ChiSquared N (resampled o2 ob) mv = Ok (o2', f2) /\ same_value f1 f2).
  { intros C1 C2. destruct (chi_ok (F01 m) (F00 m) P1 L R C1) as (o1' & E1). destruct (chi_ok (F01 m) (F00 m) P2 L2 R2 C2) as (o2' & E2).
    rewrite E1, E2. eexists _, _, _, _. split; [reflexivity|]. split; [reflexivity|]. left. cbv zeta.
    rewrite <- E. rewrite (@enorm_same m (map (deviate N s1 o1 mv) (pixels s1 ob)) (map (deviate N s2 o2 mv) (pixels s1 ob))); [reflexivity|].
    apply Forall2_map_in. intros z I. apply pair_dev; [|now apply pixels_lt]. unfold chi_statistic in C1. intros Q. now rewrite Q in C1. }
  unfold chi_statistic in *. destruct (s_stat s1), (s_stat s2); try contradiction; auto.
Qed.

Lemma pair_deviates y : s_stat s1 <> Cash -> length y = length (pixels s1 ob) -> exists o1' o2' y1 y2,
  ComputeDeviates N (resampled o1 ob) mv y 0 = Ok (o1', y1) /\ ComputeDeviates N (resampled o2 ob) mv y 0 = Ok (o2', y2) /\
  Forall2 same_value y1 y2.
Proof.
  intros NC Ly. destruct diff_pixels as (E & R2 & L2).
  destruct (@deviates_ok _ N (F01 m) (F00 m) s1 st1 o1 mv ob y 0 P1 L R) as (o1' & E1); [lia|].
  destruct (@deviates_ok _ N (F01 m) (F00 m) s2 st2 o2 mv ob y 0 P2 L2 R2) as (o2' & E2); [rewrite <- E; lia|].
  rewrite E1, E2. eexists _, _, _, _. split; [reflexivity|]. split; [reflexivity|].
  rewrite <- E. cbn [firstn app Nat.add]. rewrite <- Ly, skipn_all, !app_nil_r.
  apply Forall2_map_in. intros z I. apply pair_dev; auto. now apply pixels_lt.
Qed.
End Pair.

(** a NaN in the data makes the Poisson-MLR statistic NaN, masked or not *)
Lemma nan_add_l (x : F64) : f_add B754_nan x = B754_nan. Proof. destruct x; reflexivity. Qed.
Lemma nan_add_r (x : F64) : f_add x B754_nan = B754_nan. Proof. destruct x; reflexivity. Qed.
Lemma nan_mul_l (x : F64) : f_mul B754_nan x = B754_nan. Proof. destruct x; reflexivity. Qed.
Lemma nan_mul_r (x : F64) : f_mul x B754_nan = B754_nan. Proof. destruct x; reflexivity. Qed.
Lemma nan_sub_l (x : F64) : f_sub B754_nan x = B754_nan. Proof. destruct x; reflexivity. Qed.

Lemma fold_nan l : forall a, In B754_nan l -> fold_left f_add l a = B754_nan.
Proof.
  assert (Q : forall l, fold_left f_add l B754_nan = B754_nan).
  { induction l0 as [|x l0 IH]; [reflexivity|]. cbn [fold_left]. now rewrite nan_add_l. }
  induction l as [|x l IH]; intros a I; [destruct I|]. cbn [fold_left]. destruct I as [->|I]; [|now apply IH].
  rewrite nan_add_r. apply Q.
Qed.

Lemma pmlr_nan s st o mv z : pr s st o -> s_stat s = PMLR -> length mv = model_size s -> z < npix s ->
  at_ N (s_data s) z = B754_nan -> exists o', GetFitStatistic N o mv = Ok (o', B754_nan).
Proof.
  intros P Es L Hz Dz. unfold GetFitStatistic. rewrite (p_uc P), Es.
  change o with (resampled o None) at 1. rewrite (@cash_ok _ N s st o mv None P L I); [|unfold chi_statistic; now rewrite Es].
  cbn [bind]. eexists. do 2 f_equal. cbn [nmul nofZ nadd NumF].
  rewrite fold_nan; [apply nan_mul_r|]. apply in_map_iff. exists z. split; [|apply in_seq; lia].
  unfold pixel_term, data_term, counts. rewrite Es, Dz. cbn [nmul nadd nsub nleb nofZ NumF].
  rewrite nan_add_l, nan_mul_r.
  replace (f_leb B754_nan (f_ofZ 0)) with false by (vm_compute; reflexivity). cbv iota.
  rewrite nan_mul_l, nan_sub_l, nan_add_r. apply nan_mul_r.
Qed.
End F.

(** ---- C36 ---- *)
Lemma index_in_range m y n : (0 <= y < 2 ^ 32)%Z -> (1 <= n < 2 ^ 31)%Z ->
  exists k, ntrunc (NumF m) (f_mul (real2 (NumF m) y) (f_ofZ n)) = Some k /\ (0 <= k < n)%Z.
Proof.
  intros Hy Hn. assert (By : B32 y) by exact Hy.
  pose proof (real2_exact m By) as Iu. set (u := (IZR y / IZR (2 ^ 32))%R) in *.
  assert (In : isf (f_ofZ n) (IZR n)) by (apply isf_ofZ; lia).
  assert (U : (0 <= u <= 1 - / IZR (2 ^ 32))%R).
  { unfold u. split.
    - apply Rmult_le_pos; [apply IZR_le; lia|]. left. apply Rinv_0_lt_compat, IZR_lt. lia.
    - apply Rmult_le_reg_r with (IZR (2 ^ 32)); [apply IZR_lt; lia|].
      unfold Rdiv. rewrite Rmult_assoc, Rinv_l, Rmult_1_r by (apply IZR_neq; lia).
      rewrite Rmult_minus_distr_r, Rinv_l, Rmult_1_l by (apply IZR_neq; lia). rewrite <- minus_IZR. apply IZR_le. lia. }
  assert (N1 : (1 <= IZR n)%R) by (apply IZR_le; lia).
  assert (Pn : (0 <= u * IZR n)%R) by (apply Rmult_le_pos; lra).
  assert (Pl : (u * IZR n <= IZR n)%R).
  { rewrite <- (Rmult_1_l (IZR n)) at 2. apply Rmult_le_compat_r; [lra|].
    assert (0 < / IZR (2 ^ 32))%R by (apply Rinv_0_lt_compat, IZR_lt; lia). lra. }
  set (k := (Z.log2 n + 1)%Z).
  assert (K : (2 ^ (k - 1) <= n < 2 ^ k)%Z) by (unfold k; replace (Z.log2 n + 1 - 1)%Z with (Z.log2 n) by lia; apply Z.log2_spec; lia).
  assert (K1 : (1 <= k <= 31)%Z).
  { unfold k. pose proof (Z.log2_nonneg n). split; [lia|]. assert (Z.log2 n < 31)%Z by (apply Z.log2_lt_pow2; lia). lia. }
  (* the largest float below n *)
  set (b := (IZR (n * 2 ^ (53 - k) - 1) * bpow radix2 (k - 53))%R).
  assert (PW : (2 ^ k * 2 ^ (53 - k) = 2 ^ 53)%Z) by (rewrite <- Z.pow_add_r by lia; f_equal; lia).
  assert (P0 : (0 < 2 ^ (53 - k))%Z) by (apply Z.pow_pos_nonneg; lia).
  assert (Fb : fmt b) by (apply fmt_dyadic; [nia|lia]).
  assert (Eb : b = (IZR n - bpow radix2 (k - 53))%R).
  { unfold b. rewrite minus_IZR, mult_IZR. rewrite Rmult_minus_distr_r, Rmult_1_l.
    rewrite <- (bpow_IZR (53 - k)) by lia. rewrite Rmult_assoc, <- bpow_plus. replace (53 - k + (k - 53))%Z with 0%Z by lia. cbn [bpow]. now rewrite Rmult_1_r. }
  assert (Ub : (u * IZR n <= b)%R).
  { rewrite Eb. apply Rle_trans with ((1 - / IZR (2 ^ 32)) * IZR n)%R; [apply Rmult_le_compat_r; lra|].
    rewrite Rmult_minus_distr_r, Rmult_1_l. apply Rplus_le_compat_l, Ropp_le_contravar.
    change (/ IZR (2 ^ 32))%R with (bpow radix2 (-32)).
    apply Rle_trans with (bpow radix2 (-32) * bpow radix2 (k - 1))%R.
    - rewrite <- bpow_plus. apply bpow_le. lia.
    - apply Rmult_le_compat_l; [apply bpow_ge_0|]. rewrite bpow_IZR by lia. apply IZR_le. lia. }
  assert (Ip : isf (f_mul (real2 (NumF m) y) (f_ofZ n)) (rnd (u * IZR n))).
  { apply isf_mul; auto. apply no_overflow with (IZR n); [apply fmt_Z; lia|rewrite Rabs_pos_eq; auto|].
    unfold big. apply Rlt_le_trans with (IZR (2 ^ 31)); [apply IZR_lt; lia|]. rewrite <- bpow_IZR by lia. apply bpow_le. lia. }
  assert (R0 : (0 <= rnd (u * IZR n))%R) by (apply rnd_ge_fmt; [apply fmt_0|auto]).
  assert (R1 : (rnd (u * IZR n) <= b)%R) by (apply rnd_le_fmt; auto).
  destruct Ip as (Fp & Vp). cbn [ntrunc NumF]. unfold f_trunc. rewrite Fp. eexists. split; [reflexivity|].
  assert (BT : IZR (Btrunc (f_mul (real2 (NumF m) y) (f_ofZ n))) = IZR (Ztrunc (rnd (u * IZR n)))).
  { rewrite Btrunc_correct by exact Hmax. rewrite round_FIX0. now rewrite Vp. }
  apply eq_IZR in BT. rewrite BT. rewrite Ztrunc_floor by auto. split.
  - apply Zfloor_lub. exact R0.
  - apply lt_IZR. apply Rle_lt_trans with (rnd (u * IZR n)); [apply Zfloor_lb|].
    eapply Rle_lt_trans; [exact R1|]. rewrite Eb. assert (0 < bpow radix2 (k - 53))%R by apply bpow_gt_0. lra.
Qed.

Section Boot.
Variable m : Libm.
Notation N := (NumF m).
Variable o : mobj F64.
Variable w : nat -> Z.
Hypothesis W : forall k, (0 <= w k < 2 ^ 32)%Z.
Hypothesis Hn : (1 <= Z.of_nat (nDataVals o) < 2 ^ 31)%Z.
Hypothesis Hw : length (weightVector o) = nDataVals o.
Notation draw := (fun k => real2 N (w k)).

Lemma draw_ok fuel : forall k,
  (exists n k', draw_pixel N fuel o draw k = Ok (n, k') /\ n < nDataVals o /\ f_ltb (f_ofZ 0) (at_ N (weightVector o) n) = true /\ k < k') \/
  draw_pixel N fuel o draw k = Fuel.
Proof.
  induction fuel as [|fuel IH]; intros k; [right; reflexivity|]. cbn [draw_pixel].
  destruct (index_in_range m (W k) Hn) as (n & E & B). cbn [nmul nofZ NumF] in *. rewrite E.
  unfold getZ. destruct (Z.ltb_spec n 0); [lia|].
  assert (L : Z.to_nat n < length (weightVector o)) by (rewrite Hw; lia).
  rewrite (@at_get _ N _ _ L). cbn [bind nltb NumF]. destruct (f_ltb (f_ofZ 0) (at_ N (weightVector o) (Z.to_nat n))) eqn:Ew.
  - left. exists (Z.to_nat n), (S k). repeat split; auto. lia.
  - destruct (IH (S k)) as [(n' & k' & Q1 & Q2 & Q3 & Q4)|Q]; [left|right; exact Q]. exists n', k'. repeat split; auto. lia.
Qed.

Lemma boot_ok fuel k :
  (exists b k', MakeBootstrapSample N fuel o draw k = Ok (with_bootstrap o b, k') /\
     length b = Z.to_nat (nValid o) /\
     Forall (fun n => n < nDataVals o /\ f_ltb (f_ofZ 0) (at_ N (weightVector o) n) = true) b) \/
  MakeBootstrapSample N fuel o draw k = Fuel.
Proof.
  unfold MakeBootstrapSample. set (n := Z.to_nat (nValid o)).
  assert (X : forall j l k0, Forall (fun n => n < nDataVals o /\ f_ltb (f_ofZ 0) (at_ N (weightVector o) n) = true) l -> forall i,
    (exists b k', for_from i j (fun (_ : nat) '(l, k) => do p <- draw_pixel N fuel o draw k; let '(n, k') := p in Ok (l ++ [n], k')) (l, k0) = Ok (b, k') /\
       length b = length l + j /\ Forall (fun n => n < nDataVals o /\ f_ltb (f_ofZ 0) (at_ N (weightVector o) n) = true) b) \/
    for_from i j (fun (_ : nat) '(l, k) => do p <- draw_pixel N fuel o draw k; let '(n, k') := p in Ok (l ++ [n], k')) (l, k0) = Fuel).
  { induction j as [|j IH]; intros l k0 Fl i.
    - left. exists l, k0. split; [reflexivity|]. split; [lia|auto].
    - cbn [for_from]. destruct (draw_ok fuel k0) as [(n' & k' & Q1 & Q2 & Q3 & Q4)|Q].
      + rewrite Q1. cbn [bind]. destruct (IH (l ++ [n']) k') with (i := S i) as [(b & k'' & B1 & B2 & B3)|B].
        * apply Forall_app. split; auto.
        * left. exists b, k''. rewrite app_length in B2. cbn [length] in B2. split; [exact B1|]. split; [lia|exact B3].
        * right. exact B.
      + rewrite Q. right. reflexivity. }
  destruct (X n [] k (Forall_nil _) 0) as [(b & k' & B1 & B2 & B3)|B]; unfold for_; [left|right].
  - rewrite B1. cbn [bind]. exists b, k'. auto.
  - rewrite B. reflexivity.
Qed.

Lemma boot_stuck fuel k : (1 <= nValid o)%Z -> (forall n, n < nDataVals o -> f_ltb (f_ofZ 0) (at_ N (weightVector o) n) = false) ->
  MakeBootstrapSample N fuel o draw k = Fuel.
Proof.
  intros Hv Hz. destruct (boot_ok fuel k) as [(b & k' & _ & B2 & B3)|B]; [|exact B].
  destruct b as [|n b]; [cbn [length] in B2; lia|]. inversion B3 as [|? ? (Q1 & Q2) _]. rewrite Hz in Q2 by auto. discriminate.
Qed.
End Boot.
