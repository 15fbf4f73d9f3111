From Coq Require Import ZArith List Lia Bool.
From Verif Require Import Base Mem_Spec.
Import ListNotations.
Open Scope Z_scope.
Set Implicit Arguments. Unset Strict Implicit.

Lemma int_Ok z x : int_ z = Ok x -> x = z /\ - 2 ^ 31 <= z <= INT_MAX.
Proof. unfold int_. destruct ((_ <=? _) && _) eqn:E; intros H; [|discriminate]. apply Ok_inj in H. lia. Qed.
Lemma long_Ok z x : long_ z = Ok x -> x = z.
Proof. unfold long_. destruct ((_ <=? _) && _) eqn:E; intros H; [|discriminate]. apply Ok_inj in H. lia. Qed.
Lemma int_ok z : - 2 ^ 31 <= z <= INT_MAX -> int_ z = Ok z.
Proof. intros H. unfold int_. destruct ((_ <=? _) && _) eqn:E; auto. lia. Qed.
Lemma long_ok z : - 2 ^ 63 <= z <= 2 ^ 63 - 1 -> long_ z = Ok z.
Proof. intros H. unfold long_. destruct ((_ <=? _) && _) eqn:E; auto. lia. Qed.

Lemma bytes_app a b : bytes (a ++ b) = bytes a + bytes b.
Proof. induction a as [|[c s] a IH]; cbn [bytes app]; lia. Qed.

Lemma conv_bytes nc nr pc pr e : 1 <= nc -> 1 <= nr -> 1 <= pc -> 1 <= pr ->
  EstimateConvolverMemoryUse nc nr pc pr = Ok e -> e = pc * pr + bytes (convolver_buffers nc nr pc pr).
Proof.
  intros H1 H2 H3 H4 E. unfold EstimateConvolverMemoryUse in E.
  apply bind_Ok in E. destruct E as (a & Ea & E). apply int_Ok in Ea. destruct Ea as (-> & _).
  apply bind_Ok in E. destruct E as (b & Eb & E). apply int_Ok in Eb. destruct Eb as (-> & _).
  apply long_Ok in E. rewrite Z.quot_div_nonneg in E by lia.
  unfold convolver_buffers. cbn [bytes]. unfold DOUBLE_SIZE, FFTW_SIZE in E. lia.
Qed.

Lemma region_bytes r e : region_ok r -> region_use r = Ok e ->
  e = bytes (region_buffers r) - 7 * (rg_cols r * rg_rows r).
Proof.
  intros (H1 & H2 & H3 & H4 & H5) E. unfold region_use in E.
  apply bind_Ok in E. destruct E as (a & Ea & E). apply int_Ok in Ea. destruct Ea as (-> & _).
  apply bind_Ok in E. destruct E as (b & Eb & E). apply int_Ok in Eb. destruct Eb as (-> & _).
  apply bind_Ok in E. destruct E as (c & Ec & E). apply int_Ok in Ec. destruct Ec as (-> & _).
  apply bind_Ok in E. destruct E as (d & Ed & E). apply int_Ok in Ed. destruct Ed as (-> & _).
  apply bind_Ok in E. destruct E as (f & Ef & E). apply conv_bytes in Ef; try nia. apply long_Ok in E.
  unfold region_buffers. cbn [bytes]. unfold DOUBLE_SIZE in E. lia.
Qed.

Lemma regions_bytes v : forall e, Forall region_ok v -> EstimatePsfOversamplingMemoryUse v = Ok e ->
  e = bytes (flat_map region_buffers v) - 7 * fold_right Z.add 0 (map (fun r => rg_cols r * rg_rows r) v).
Proof.
  induction v as [|r v IH]; intros e H E; cbn [EstimatePsfOversamplingMemoryUse] in E.
  - apply Ok_inj in E. cbn. lia.
  - inversion H; subst. apply bind_Ok in E. destruct E as (a & Ea & E). apply region_bytes in Ea; auto.
    apply bind_Ok in E. destruct E as (b & Eb & E). apply IH in Eb; auto. apply long_Ok in E.
    cbn [flat_map map fold_right]. rewrite bytes_app. lia.
Qed.

Lemma fit_bytes dc dr pc pr nf lm ca rs mo e : 1 <= dc -> 1 <= dr -> 0 <= nf ->
  (0 < pc -> 1 <= pr) ->
  EstimateMemoryUse dc dr pc pr nf lm ca rs mo = Ok e ->
  bytes (fit_buffers dc dr pc pr nf lm ca rs mo) <= e.
Proof.
  intros H1 H2 H3 H4 E. unfold EstimateMemoryUse in E. apply bind_Ok in E. destruct E as ((mp & cv) & Em & E).
  apply bind_Ok in E. destruct E as (n & En & E). apply int_Ok in En. destruct En as (-> & _). apply long_Ok in E.
  unfold DOUBLE_SIZE in E. subst e.
  assert (D : 1 <= dc * dr) by nia. set (D' := dc * dr) in *.
  assert (Core : bytes (if 0 <? pc then
        [(pc * pr, 8); (pc * pr, 8); ((dc + 2 * pc) * (dr + 2 * pr), 8)]
        ++ convolver_buffers (dc + 2 * pc) (dr + 2 * pr) pc pr else [(D', 8)]) + 16 * D' <= cv + 3 * (mp * 8)).
  { destruct (Z.ltb_spec 0 pc) as [P|P].
    - specialize (H4 P). apply bind_Ok in Em. destruct Em as (a & Ea & Em). apply int_Ok in Ea. destruct Ea as (-> & _).
      apply bind_Ok in Em. destruct Em as (b & Eb & Em). apply int_Ok in Eb. destruct Eb as (-> & _).
      apply bind_Ok in Em. destruct Em as (c & Ec & Em). apply conv_bytes in Ec; try lia.
      apply Ok_inj in Em. apply pair_equal_spec in Em. destruct Em as (<- & <-). rewrite bytes_app. cbn [bytes]. subst c.
      assert (1 <= pc * pr) by nia. assert (1 <= pc * dr) by nia. assert (1 <= dc * pr) by nia.
      replace ((dc + 2 * pc) * (dr + 2 * pr)) with (D' + 2 * (dc * pr) + 2 * (pc * dr) + 4 * (pc * pr)) by (unfold D'; ring). lia.
    - apply Ok_inj in Em. injection Em as <- <-. cbn [bytes]. lia. }
  match type of Core with bytes ?l + _ <= _ => set (L := l) in Core end.
  assert (EB : fit_buffers dc dr pc pr nf lm ca rs mo =
    [(D', 8); (D', 8); (D', 8)] ++ L ++ (if lm then [(D', 8); (D', 8); (D', 8); (D' * nf, 8)] else [])
    ++ (if ca then [(D', 8)] else []) ++ (if rs then [(D', 8)] else []) ++ (if mo then [(D', 8)] else [])) by reflexivity.
  rewrite EB, !bytes_app. assert (0 <= D' * nf) by nia. clearbody L.
  destruct lm, ca, rs, mo; cbn [bytes]; rewrite ?Z.mul_add_distr_r; lia.
Qed.

Lemma conv_defined nc nr pc pr : 1 <= nc <= 2 ^ 26 -> 1 <= nr <= 2 ^ 26 -> size_ok pc -> size_ok pr ->
  exists e, EstimateConvolverMemoryUse nc nr pc pr = Ok e /\ 0 <= e <= 2 ^ 62.
Proof.
  unfold size_ok. intros H1 H2 H3 H4. unfold EstimateConvolverMemoryUse.
  rewrite int_ok by (unfold INT_MAX; lia). cbn [bind]. rewrite int_ok by (unfold INT_MAX; lia). cbn [bind].
  rewrite Z.quot_div_nonneg by lia. unfold DOUBLE_SIZE, FFTW_SIZE.
  set (A := nc + pc - 1) in *. set (B := nr + pr - 1) in *.
  assert (HA : 1 <= A <= 2 ^ 27) by (unfold A; lia). assert (HB : 1 <= B <= 2 ^ 27) by (unfold B; lia).
  assert (HC : 0 <= A / 2 + 1 <= A + 1).
  { assert (A / 2 <= A) by (apply Z.div_le_upper_bound; lia). assert (0 <= A / 2) by (apply Z.div_pos; lia). lia. }
  set (C := A / 2 + 1) in *.
  assert (P1 : 0 <= pc * pr <= 2 ^ 48) by (change (2 ^ 48) with (2 ^ 24 * 2 ^ 24); nia).
  assert (P2 : 0 <= A * B <= 2 ^ 54) by (change (2 ^ 54) with (2 ^ 27 * 2 ^ 27); nia).
  assert (P3 : 0 <= C * B <= 2 ^ 55) by (change (2 ^ 55) with (2 ^ 28 * 2 ^ 27); assert (C <= 2 ^ 28) by lia; nia).
  rewrite long_ok by lia. eexists. split; [reflexivity|]. lia.
Qed.

Lemma fit_defined dc dr pc pr nf lm ca rs mo : size_ok dc -> size_ok dr -> size_ok pc -> size_ok pr ->
  0 <= nf <= 1000 -> exists e, EstimateMemoryUse dc dr pc pr nf lm ca rs mo = Ok e.
Proof.
  unfold size_ok. intros H1 H2 H3 H4 H5. unfold EstimateMemoryUse.
  destruct (Z.ltb_spec 0 pc); [|lia].
  rewrite int_ok by (unfold INT_MAX; lia). cbn [bind]. rewrite int_ok by (unfold INT_MAX; lia). cbn [bind].
  destruct (@conv_defined (dc + 2 * pc) (dr + 2 * pr) pc pr) as (e & -> & He); try (unfold size_ok; lia). cbn [bind].
  set (b2i := fun b : bool => if b then 1 else 0).
  assert (Hb : forall b, 0 <= b2i b <= 1) by (intros []; cbn; lia).
  pose proof (Hb ca). pose proof (Hb rs). pose proof (Hb mo).
  set (n := (if lm then 3 + nf else 0) + b2i ca + b2i rs + b2i mo).
  assert (Hn : 0 <= n <= 1006) by (unfold n; destruct lm; lia).
  change (int_ _) with (int_ n).
  rewrite int_ok by (unfold INT_MAX; lia). cbn [bind]. unfold DOUBLE_SIZE.
  assert (D : 1 <= dc * dr <= 2 ^ 48) by (change (2 ^ 48) with (2 ^ 24 * 2 ^ 24); nia).
  assert (M : 1 <= (dc + 2 * pc) * (dr + 2 * pr) <= 2 ^ 52) by (change (2 ^ 52) with (2 ^ 26 * 2 ^ 26); nia).
  set (D' := dc * dr) in *. assert (Q : 0 <= n * (D' * 8) <= 2 ^ 61) by nia.
  rewrite long_ok by lia. eauto.
Qed.

Lemma conv_at_least nc nr pc pr e : 1 <= nc -> 1 <= nr -> 1 <= pc -> 1 <= pr ->
  EstimateConvolverMemoryUse nc nr pc pr = Ok e -> bytes (convolver_buffers nc nr pc pr) <= e.
Proof. intros H1 H2 H3 H4 E. rewrite (conv_bytes H1 H2 H3 H4 E). nia. Qed.
Lemma region_short r e : region_ok r -> region_use r = Ok e -> e < bytes (region_buffers r).
Proof. intros H E. rewrite (region_bytes H E). destruct H as (_ & A & B & _). nia. Qed.
