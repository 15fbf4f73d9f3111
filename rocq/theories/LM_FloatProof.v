(** The Levenberg-Marquardt solver in binary64 and in exact arithmetic: the facts
    about the arithmetic that LM_Proof needs. *)
From Coq Require Import ZArith List Bool Lia Reals Lra.
From Flocq Require Import Core.Core IEEE754.BinarySingleNaN.
From Verif Require Import Base Num FloatFacts FloatOrder Stats_Model DE_Model LM_Model LM_Spec DE_FloatProof LM_Proof.
Import ListNotations.
Set Implicit Arguments. Unset Strict Implicit.
Local Open Scope R_scope.

Section F.
Variable lib : Libm.
Notation N := (NumF lib).

Lemma sub_0_key (t : F64) : is_nan t = false -> is_nan (f_sub t (f_ofZ 0)) = false /\ fkey (f_sub t (f_ofZ 0)) = fkey t.
Proof.
  intros H. destruct (is_finite t) eqn:F.
  - pose proof (@isf_sub_0 t (f_ofZ 0) (B2R t) (conj F eq_refl) (isf_ofZ 0 ltac:(vm_compute; discriminate))) as Q.
    rewrite (fkey_isf _ _ Q), (fkey_fin _ F). split; [eapply isf_nn; eassumption|reflexivity].
  - destruct t as [s|s| |s m e Hb]; try discriminate. destruct s; split; reflexivity.
Qed.
Lemma add_0_key (t : F64) : is_nan t = false -> is_nan (f_add t (f_ofZ 0)) = false /\ fkey (f_add t (f_ofZ 0)) = fkey t.
Proof.
  intros H. destruct (is_finite t) eqn:F.
  - pose proof (@isf_add_0 t (f_ofZ 0) (B2R t) (conj F eq_refl) (isf_ofZ 0 ltac:(vm_compute; discriminate))) as Q.
    rewrite (fkey_isf _ _ Q), (fkey_fin _ F). split; [eapply isf_nn; eassumption|reflexivity].
  - destruct t as [s|s| |s m e Hb]; try discriminate. destruct s; split; reflexivity.
Qed.

Lemma c_small : exists c, isf (f_sub (f_ofZ 1) (f_mul (f_ofZ 1) (MACHEP0 N))) c /\ 0 <= c <= 1.
Proof.
  exists (IZR (cond_Zopp false 9007199254740990) * bpow radix2 (-53)). split; [apply isf_B2SF; vm_compute; reflexivity|].
  cbn [cond_Zopp]. change (bpow radix2 (-53)) with (/ IZR (2 ^ 53)). replace (2 ^ 53)%Z with 9007199254740992%Z by reflexivity. lra.
Qed.
Lemma c_large : exists c, isf (f_sub (f_ofZ 1) (f_mul (f_ofZ (-1)) (MACHEP0 N))) c /\ 1 <= c.
Proof.
  exists (IZR (cond_Zopp false 4503599627370497) * bpow radix2 (-52)). split; [apply isf_B2SF; vm_compute; reflexivity|].
  cbn [cond_Zopp]. change (bpow radix2 (-52)) with (/ IZR (2 ^ 52)). replace (2 ^ 52)%Z with 4503599627370496%Z by reflexivity. lra.
Qed.
Lemma d_small : exists c, isf (f_add (f_ofZ 1) (f_mul (f_ofZ (-1)) (MACHEP0 N))) c /\ 0 <= c <= 1.
Proof.
  exists (IZR (cond_Zopp false 9007199254740990) * bpow radix2 (-53)). split; [apply isf_B2SF; vm_compute; reflexivity|].
  cbn [cond_Zopp]. change (bpow radix2 (-53)) with (/ IZR (2 ^ 53)). replace (2 ^ 53)%Z with 9007199254740992%Z by reflexivity. lra.
Qed.
Lemma d_large : exists c, isf (f_add (f_ofZ 1) (f_mul (f_ofZ 1) (MACHEP0 N))) c /\ 1 <= c.
Proof.
  exists (IZR (cond_Zopp false 4503599627370497) * bpow radix2 (-52)). split; [apply isf_B2SF; vm_compute; reflexivity|].
  cbn [cond_Zopp]. change (bpow radix2 (-52)) with (/ IZR (2 ^ 52)). replace (2 ^ 52)%Z with 4503599627370496%Z by reflexivity. lra.
Qed.

Lemma fin_signed s m e H : 
  (s = false -> f_leb (f_ofZ 0) (B754_finite s m e H) = true /\ 0 < B2R (B754_finite s m e H : F64)) /\
  (s = true -> f_leb (f_ofZ 0) (B754_finite s m e H) = false /\ B2R (B754_finite s m e H : F64) < 0) /\
  f_eqb (B754_finite s m e H) (f_ofZ 0) = false.
Proof.
  assert (Z0 : isf (f_ofZ 0) 0) by (apply (isf_ofZ 0); vm_compute; discriminate).
  split; [|split].
  - intros ->. assert (P : 0 < B2R (B754_finite false m e H : F64)) by (apply F2R_gt_0; reflexivity). split; [|exact P].
    rewrite (isf_leb _ _ 0 (B2R (B754_finite false m e H : F64)) Z0); [|split; reflexivity]. apply Rleb_true. lra.
  - intros ->. assert (P : B2R (B754_finite true m e H : F64) < 0) by (apply F2R_lt_0; reflexivity). split; [|exact P].
    rewrite (isf_leb _ _ 0 (B2R (B754_finite true m e H : F64)) Z0); [|split; reflexivity]. apply Rleb_false. lra.
  - unfold f_eqb. destruct s; reflexivity.
Qed.

Lemma ulim1_le (u : F64) : is_nan u = false -> is_nan (ulim1 N u) = false /\ fkey (ulim1 N u) <= fkey u.
Proof.
  intros NU. destruct u as [s|s| |s m e H]; try discriminate.
  - assert (f_leb (ulim1 N (B754_zero s)) (B754_zero s) = true) by (destruct s; vm_compute; reflexivity).
    apply leb_key_true in H. tauto.
  - assert (f_leb (ulim1 N (B754_infinity s)) (B754_infinity s) = true) by (destruct s; vm_compute; reflexivity).
    apply leb_key_true in H. tauto.
  - destruct (fin_signed s H) as (A & B & C). set (u := B754_finite s m e H : F64) in *.
    assert (Fu : isf u (B2R u)) by (split; reflexivity).
    assert (Bu : Rabs (B2R u) < big) by apply fin_big.
    unfold ulim1. cbn [nofZ nleb nmul nsub neqb NumF]. rewrite C. destruct s.
    + destruct B as (B1 & B2); [reflexivity|]. rewrite B1. destruct c_large as (c & Hc & Hc').
      pose proof (sat_mul _ _ _ _ Fu Hc) as S. destruct (sub_0_key (sat_nn _ _ S)) as (K1 & K2). rewrite K2. split; [exact K1|].
      rewrite (fkey_isf _ _ Fu). apply (sat_le _ _ _ S); [apply fin_fmt|exact Bu|nra].
    + destruct A as (A1 & A2); [reflexivity|]. rewrite A1. destruct c_small as (c & Hc & Hc').
      pose proof (sat_mul _ _ _ _ Fu Hc) as S. destruct (sub_0_key (sat_nn _ _ S)) as (K1 & K2). rewrite K2. split; [exact K1|].
      rewrite (fkey_isf _ _ Fu). apply (sat_le _ _ _ S); [apply fin_fmt|exact Bu|nra].
Qed.
Lemma llim1_ge (u : F64) : is_nan u = false -> is_nan (llim1 N u) = false /\ fkey u <= fkey (llim1 N u).
Proof.
  intros NU. destruct u as [s|s| |s m e H]; try discriminate.
  - assert (f_leb (B754_zero s) (llim1 N (B754_zero s)) = true) by (destruct s; vm_compute; reflexivity).
    apply leb_key_true in H. tauto.
  - assert (f_leb (B754_infinity s) (llim1 N (B754_infinity s)) = true) by (destruct s; vm_compute; reflexivity).
    apply leb_key_true in H. tauto.
  - destruct (fin_signed s H) as (A & B & C). set (u := B754_finite s m e H : F64) in *.
    assert (Fu : isf u (B2R u)) by (split; reflexivity).
    assert (Bu : Rabs (B2R u) < big) by apply fin_big.
    unfold llim1. cbn [nofZ nleb nmul nadd neqb NumF]. rewrite C. destruct s.
    + destruct B as (B1 & B2); [reflexivity|]. rewrite B1. destruct d_small as (c & Hc & Hc').
      pose proof (sat_mul _ _ _ _ Fu Hc) as S. destruct (add_0_key (sat_nn _ _ S)) as (K1 & K2). rewrite K2. split; [exact K1|].
      rewrite (fkey_isf _ _ Fu). apply (sat_ge _ _ _ S); [apply fin_fmt|exact Bu|nra].
    + destruct A as (A1 & A2); [reflexivity|]. rewrite A1. destruct d_large as (c & Hc & Hc').
      pose proof (sat_mul _ _ _ _ Fu Hc) as S. destruct (add_0_key (sat_nn _ _ S)) as (K1 & K2). rewrite K2. split; [exact K1|].
      rewrite (fkey_isf _ _ Fu). apply (sat_ge _ _ _ S); [apply fin_fmt|exact Bu|nra].
Qed.

Lemma F_up u y : nltb N u y = true -> nleb N (ulim1 N u) y = true.
Proof.
  intros H. apply ltb_key_true in H. destruct H as (A & B & C). destruct (ulim1_le A) as (D & E).
  apply leb_key_true. repeat split; auto. lra.
Qed.
Lemma F_lo u y : nltb N y u = true -> nleb N y (llim1 N u) = true.
Proof.
  intros H. apply ltb_key_true in H. destruct H as (A & B & C). destruct (llim1_ge B) as (D & E).
  apply leb_key_true. repeat split; auto. lra.
Qed.
Lemma F_irr a : nltb N a a = false.
Proof. apply flt_irrefl. Qed.
Lemma F_ord a b : nleb N a b = false -> nltb N a b = false.
Proof.
  intros H. destruct (nltb N a b) eqn:E; [|reflexivity]. apply ltb_key_true in E. destruct E as (A & B & C).
  assert (nleb N a b = true) by (apply leb_key_true; repeat split; auto; lra). congruence.
Qed.
Lemma F_trans a b d : nltb N a b = true -> nltb N b d = true -> nltb N a d = true.
Proof. apply flt_trans. Qed.

(** ---- acceptance of a step ---- *)
Lemma pos_const x r : isf x r -> 0 < r -> pos x.
Proof. intros (F & <-) P. right. now apply pos_fin_key. Qed.
Lemma p5_isf : isf (p5 N) (/ 2).
Proof.
  replace (/ 2) with (IZR (cond_Zopp false 4503599627370496) * bpow radix2 (-53)).
  - apply isf_B2SF. vm_compute. reflexivity.
  - cbn [cond_Zopp]. change (bpow radix2 (-53)) with (/ IZR (2 ^ 53)). replace (2 ^ 53)%Z with 9007199254740992%Z by reflexivity. lra.
Qed.
Lemma p0001_pos : 0 < fkey (p0001 N).
Proof.
  assert (isf (p0001 N) (IZR (cond_Zopp false 7378697629483821) * bpow radix2 (-66))) by (apply isf_B2SF; vm_compute; reflexivity).
  rewrite (fkey_isf _ _ H). cbn [cond_Zopp]. pose proof (bpow_gt_0 radix2 (-66)). lra.
Qed.
Lemma p1_isf : exists r, isf (p1 N) r /\ 0 < r.
Proof.
  exists (IZR (cond_Zopp false 7205759403792794) * bpow radix2 (-56)). split; [apply isf_B2SF; vm_compute; reflexivity|].
  cbn [cond_Zopp]. pose proof (bpow_gt_0 radix2 (-56)). lra.
Qed.

Lemma div_nonpos (x y : F64) : is_nan x = false -> fkey x <= 0 -> pos y -> is_nan (f_div x y) = false -> fkey (f_div x y) <= 0 \/ fkey y = 0.
Proof.
  intros Nx Kx Py Nd. pose proof big_pos as BP. destruct (nan_div _ _ Nd) as (_ & Ny).
  assert (Sy : Bsign y = false) by (destruct Py; congruence).
  destruct (Req_dec (fkey y) 0) as [Z|NZ]; [right; exact Z|left].
  destruct (Req_dec (fkey x) 0) as [Zx|NZx].
  - destruct x as [s|s| |s m e H]; try discriminate; cbn [fkey] in Zx.
    + destruct y as [s'|s'| |s' m' e' H']; try discriminate; cbn in NZ |- *; try lra.
    + destruct s; lra.
    + exfalso. cbn [B2R] in Zx. destruct s.
      * pose proof (F2R_lt_0 radix2 (Float radix2 (Zneg m) e) eq_refl). cbn in *. lra.
      * pose proof (F2R_gt_0 radix2 (Float radix2 (Zpos m) e) eq_refl). cbn in *. lra.
  - assert (Sx : Bsign x = true).
    { destruct x as [s|s| |s m e H]; try discriminate; cbn [fkey] in *.
      - cbn in NZx. lra.
      - destruct s; [reflexivity|lra].
      - destruct s; [reflexivity|]. exfalso. pose proof (F2R_gt_0 radix2 (Float radix2 (Zpos m) e) eq_refl). cbn in *. lra. }
    pose proof (sign_div _ _ Nd) as S. rewrite Sx, Sy in S. cbn in S.
    set (z := f_div x y) in *. destruct z as [s|s| |s m e H]; try discriminate; cbn in S; subst s; cbn [fkey B2R]; try lra.
    left. apply F2R_lt_0. reflexivity.
Qed.

Lemma eqb0_key (x : F64) : is_nan x = false -> f_eqb x (f_ofZ 0) = false -> fkey x <> 0.
Proof.
  intros NN H Z. pose proof big_pos as BP. destruct x as [s|s| |s m e Hb]; try discriminate; cbn [fkey] in Z.
  - destruct s; lra.
  - cbn [B2R] in Z. destruct s.
    + pose proof (F2R_lt_0 radix2 (Float radix2 (Zneg m) e) eq_refl). cbn in *. lra.
    + pose proof (F2R_gt_0 radix2 (Float radix2 (Zpos m) e) eq_refl). cbn in *. lra.
Qed.

Lemma sq_ge1 (t : F64) : is_nan t = false -> 1 <= fkey t -> is_nan (f_sub (f_ofZ 1) (f_mul t t)) = false /\ fkey (f_sub (f_ofZ 1) (f_mul t t)) <= 0.
Proof.
  intros NT K. pose proof big_pos as BP.
  assert (One : isf (f_ofZ 1) 1) by (apply (isf_ofZ 1); vm_compute; discriminate).
  assert (F1 : fmt 1) by (apply (fmt_Z 1); vm_compute; discriminate).
  assert (B1 : Rabs 1 < big) by (rewrite Rabs_pos_eq by lra; change 1 with (bpow radix2 0); apply bpow_lt; lia).
  assert (Q : is_nan (f_mul t t) = false /\ 1 <= fkey (f_mul t t)).
  { destruct (is_finite t) eqn:Ft.
    - assert (It : isf t (B2R t)) by (split; auto). rewrite (fkey_fin _ Ft) in K. pose proof (sat_mul _ _ _ _ It It) as S.
      split; [apply (sat_nn _ _ S)|]. apply (sat_ge _ _ _ S); auto. nra.
    - destruct t as [s|s| |s m e H]; try discriminate. destruct s; cbn [fkey] in K; [lra|]. split; [reflexivity|]. cbn. 
      assert (1 < big) by (change 1 with (bpow radix2 0); apply bpow_lt; lia). lra. }
  destruct Q as (Q1 & Q2). set (z := f_mul t t) in *. destruct (is_finite z) eqn:Fz.
  - assert (Iz : isf z (B2R z)) by (split; auto). rewrite (fkey_fin _ Fz) in Q2. pose proof (sat_sub _ _ _ _ One Iz) as S.
    split; [apply (sat_nn _ _ S)|]. apply (sat_le _ _ _ S); [apply fmt_0|rewrite Rabs_R0; exact BP|lra].
  - destruct z as [s|s| |s m e H]; try discriminate. destruct s; cbn [fkey] in Q2; [lra|]. split; [reflexivity|].
    replace (f_sub (f_ofZ 1) (B754_infinity false)) with (B754_infinity true : F64) by (apply B2SF_inj; vm_compute; reflexivity). cbn [fkey]. lra.
Qed.

Lemma F_accept fnorm1 fnorm t1 t2 : pos fnorm1 -> pos fnorm ->
  let actred := if nltb N (nmul N (p1 N) fnorm1) fnorm
    then let temp := ndiv N fnorm1 fnorm in nsub N (nofZ N 1) (nmul N temp temp) else nneg N (nofZ N 1) in
  let prered := nadd N (nmul N t1 t1) (ndiv N (nmul N t2 t2) (p5 N)) in
  nleb N (p0001 N) (if neqb N prered (nofZ N 0) then nofZ N 0 else ndiv N actred prered) = true ->
  nltb N fnorm1 fnorm = true.
Proof.
  intros P1 P0 actred prered H.
  assert (Pp : pos prered).
  { unfold prered. cbn [nadd nmul ndiv NumF]. apply pos_add; [apply pos_sq|]. apply pos_div; [apply pos_sq|]. eapply pos_const; [apply p5_isf|lra]. }
  cbn [nleb neqb nofZ ndiv NumF] in H. apply leb_key_true in H. destruct H as (_ & HN & HK). pose proof p0001_pos as PP.
  destruct (f_eqb prered (f_ofZ 0)) eqn:E.
  { replace (fkey (f_ofZ 0)) with 0 in HK by (symmetry; apply fkey_isf; apply (isf_ofZ 0); vm_compute; discriminate). lra. }
  destruct (nan_div _ _ HN) as (Na & Np).
  assert (Ka : ~ fkey actred <= 0).
  { intros Q. destruct (div_nonpos Na Q Pp HN) as [D|D]; [lra|]. apply (eqb0_key Np E D). }
  assert (One : isf (f_ofZ 1) 1) by (apply (isf_ofZ 1); vm_compute; discriminate).
  unfold actred in Ka. cbn [nltb nmul nneg nofZ nsub ndiv NumF] in Ka.
  destruct (f_ltb (f_mul (p1 N) fnorm1) fnorm) eqn:L.
  2:{ exfalso. apply Ka. unfold f_neg. rewrite (fkey_isf _ _ (isf_opp _ _ One)). lra. }
  cbv zeta in Ka. apply ltb_key_true in L. destruct L as (L1 & L2 & L3). destruct (nan_mul _ _ L1) as (_ & L4).
  apply ltb_key_true. split; [exact L4|]. split; [exact L2|].
  destruct (Rlt_le_dec (fkey fnorm1) (fkey fnorm)) as [G|G]; [exact G|]. exfalso. apply Ka. clear Ka.
  pose proof big_pos as BP.
  destruct p1_isf as (r1 & Ip1 & Hr1).
  assert (Pm : 0 <= fkey (f_mul (p1 N) fnorm1)) by (apply pos_key; [apply pos_mul; [eapply pos_const; eassumption|assumption]|exact L1]).
  destruct (is_finite fnorm1) eqn:F1.
  - destruct (is_finite fnorm) eqn:F0.
    + apply sq_ge1.
      * assert (S : sat (f_div fnorm1 fnorm) (B2R fnorm1 / B2R fnorm)).
        { apply sat_div; [split; auto|split; auto|]. rewrite <- (fkey_fin _ F0). lra. }
        exact (sat_nn _ _ S).
      * assert (S : sat (f_div fnorm1 fnorm) (B2R fnorm1 / B2R fnorm)).
        { apply sat_div; [split; auto|split; auto|]. rewrite <- (fkey_fin _ F0). lra. }
        rewrite (fkey_fin _ F0) in *. rewrite (fkey_fin _ F1) in *.
        apply (sat_ge _ _ _ S); [apply (fmt_Z 1); vm_compute; discriminate|rewrite Rabs_pos_eq by lra; change 1 with (bpow radix2 0); apply bpow_lt; lia|].
        apply Rmult_le_reg_r with (B2R fnorm); [lra|]. unfold Rdiv. rewrite Rmult_assoc, Rinv_l by lra. lra.
    + exfalso. destruct fnorm as [s|s| |s m e H]; try discriminate. pose proof (fkey_bound _ F1). destruct s; cbn [fkey] in *; lra.
  - destruct fnorm1 as [s|s| |s m e H]; try discriminate. destruct s.
    + exfalso. destruct P1 as [P1|P1]; discriminate.
    + exfalso. assert (Q : f_mul (p1 N) (B754_infinity false) = B754_infinity false) by (apply B2SF_inj; vm_compute; reflexivity).
      rewrite Q in L3. cbn [fkey] in L3. destruct (is_finite fnorm) eqn:F0; [pose proof (fkey_bound _ F0); lra|].
      destruct fnorm as [s|s| |s m e H]; try discriminate. destruct s; cbn [fkey] in L3; lra.
Qed.

(** ---- mp_enorm returns a number without a sign ---- *)
Lemma pos_0 : pos (f_ofZ 0). Proof. right. reflexivity. Qed.
Lemma pos_1 : pos (f_ofZ 1). Proof. right. reflexivity. Qed.
Lemma pos_abs x : pos (f_abs x).
Proof. right. destruct x; reflexivity. Qed.
Lemma pos_sqrt x : pos x -> pos (f_sqrt x).
Proof.
  intros P. destruct (is_nan (f_sqrt x)) eqn:E; [left; exact E|right]. unfold f_sqrt in *.
  destruct (Bsqrt_correct 53 1024 Hprec Hmax mode_NE x) as (_ & _ & S). rewrite (S E).
  destruct P as [P|P]; [|exact P]. destruct x; try discriminate; reflexivity.
Qed.
Lemma enorm_pos v : pos (mp_enorm N v).
Proof.
  unfold mp_enorm. cbv zeta.
  set (ag := ndiv N (RGIANT N) (nofZ N (Z.of_nat (length v)))).
  assert (I : forall l st, pos (e_s1 st) /\ pos (e_s2 st) /\ pos (e_s3 st) /\ pos (e_x1max st) /\ pos (e_x3max st) ->
    let st' := fold_left (enorm_step N ag) l st in pos (e_s1 st') /\ pos (e_s2 st') /\ pos (e_s3 st') /\ pos (e_x1max st') /\ pos (e_x3max st')).
  { induction l as [|x l IH]; intros st P; cbn [fold_left]; [exact P|]. apply IH.
    destruct st as [s1 s2 s3 x1 x3]. cbn [e_s1 e_s2 e_s3 e_x1max e_x3max] in P. destruct P as (A & B & C & D & E).
    unfold enorm_step. cbn [nabs nltb nadd nmul ndiv neqb nofZ NumF]. pose proof (pos_abs x) as PA. pose proof pos_1 as P1.
    repeat match goal with |- context [if ?c then _ else _] => destruct c end;
      cbn [e_s1 e_s2 e_s3 e_x1max e_x3max]; repeat split; auto 10 using pos_add, pos_mul, pos_div. }
  specialize (I v (mkEn (nofZ N 0) (nofZ N 0) (nofZ N 0) (nofZ N 0) (nofZ N 0))). 
  destruct (fold_left (enorm_step N ag) v _) as [s1 s2 s3 x1 x3]. cbn [e_s1 e_s2 e_s3 e_x1max e_x3max] in I.
  destruct I as (A & B & C & D & E). { repeat split; exact pos_0. }
  cbn [nabs nltb nleb nadd nmul ndiv neqb nofZ nsqrt NumF]. pose proof pos_1 as P1.
  repeat match goal with |- context [if ?c then _ else _] => destruct c end; auto 10 using pos_add, pos_mul, pos_div, pos_sqrt.
Qed.
End F.
