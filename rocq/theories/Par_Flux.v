From Coq Require Import ZArith List Bool Arith Lia Permutation.
From Verif Require Import Base Num Params_Model Conv_Model Downsample_Model Image_Model Par_Model Par_Spec Par_Proof.
Import ListNotations.
Set Implicit Arguments.
Unset Strict Implicit.

Ltac pm := repeat (first [rewrite put_same | rewrite put_other by discriminate]); try assumption; try reflexivity.

(** ---- one thread: rows of an image of one function, and its share of a flux ---- *)
Section Solo.
Variable T : Type.
Variable N : Num T.
Notation mem := (mem T). Notation prog := (prog T).
Variable t : nat.
Variable O : loc -> Prop.
Hypothesis Opriv : forall v, O (Private t v).
Notation pv := (Private t).

Lemma column_run (f : fobj T) nc nVals cx after i y : i * nc + nc <= nVals -> (forall j, j < nc -> O (Pixel (Z.of_nat (i * nc + j)))) -> forall fuel j m,
  j <= nc -> nc < j + fuel -> m (pv Vj) = Int (Z.of_nat j) -> m (pv Vi) = Int (Z.of_nat i) -> m (pv Vy) = Real y ->
  exists m', same_run O m (column_loop private_rows t (pure f) (Z.of_nat nc) (Z.of_nat nVals) cx fuel after) m' after /\
    (forall j', j <= j' < nc -> m' (Pixel (Z.of_nat (i * nc + j'))) = Real (fo_value f (cx (Z.of_nat j')) y)) /\
    (forall l, (forall v, l <> pv v) -> (forall j', j <= j' < nc -> l <> Pixel (Z.of_nat (i * nc + j'))) -> m' l = m l).
Proof.
  intros HV HO. induction fuel as [|fuel IH]; intros j m Hj Hf Mj Mi My; [lia|].
  cbn [column_loop]. change (addr private_rows t Vj) with (pv Vj). change (addr private_rows t Vi) with (pv Vi). change (addr private_rows t Vx) with (pv Vx).
  change (addr private_rows t Vy) with (pv Vy). change (addr private_rows t VnewVal) with (pv VnewVal).
  destruct (Nat.eq_dec j nc) as [->|D].
  - exists m. split; [|split; [intros j'; lia|reflexivity]]. eapply same_trans; [apply same_int; [apply Opriv|exact Mj]|]. rewrite Z.ltb_irrefl. apply same_refl.
  - set (r := fo_value f (cx (Z.of_nat j)) y). set (px := Pixel (Z.of_nat (i * nc + j))).
    set (m1 := put m (pv Vx) (Real (cx (Z.of_nat j)))). set (m2 := put m1 (pv VnewVal) (Real r)). set (m3 := put m2 px (Real r)). set (m4 := put m3 (pv Vj) (Int (Z.of_nat j + 1))).
    destruct (IH (S j) m4) as (m' & R & A & B); try lia.
    + unfold m4. rewrite put_same. f_equal. lia.
    + unfold m4, m3, m2, m1, px. pm.
    + unfold m4, m3, m2, m1, px. pm.
    + exists m'. split; [|split].
      * eapply same_trans; [apply same_int; [apply Opriv|exact Mj]|]. replace (Z.of_nat j <? Z.of_nat nc)%Z with true by (symmetry; apply Z.ltb_lt; lia).
        eapply same_trans; [apply same_write; apply Opriv|]. fold m1.
        eapply same_trans; [apply (@same_real T O m1 _ (cx (Z.of_nat j))); [apply Opriv|unfold m1; pm]|].
        eapply same_trans; [apply (@same_real T O m1 _ y); [apply Opriv|unfold m1; pm]|]. cbn [pure pf_get]. fold r.
        eapply same_trans; [apply same_write; apply Opriv|]. fold m2.
        eapply same_trans; [apply (@same_int T O m2 _ (Z.of_nat i)); [apply Opriv|unfold m2, m1; pm]|].
        eapply same_trans; [apply (@same_int T O m2 _ (Z.of_nat j)); [apply Opriv|unfold m2, m1; pm]|].
        eapply same_trans; [apply (@same_real T O m2 _ r); [apply Opriv|unfold m2, m1; pm]|]. cbv zeta.
        replace (Z.of_nat i * Z.of_nat nc + Z.of_nat j)%Z with (Z.of_nat (i * nc + j)) by lia.
        replace ((0 <=? Z.of_nat (i * nc + j))%Z && (Z.of_nat (i * nc + j) <? Z.of_nat nVals)%Z)%bool with true by (symmetry; apply andb_true_intro; split; [apply Z.leb_le|apply Z.ltb_lt]; lia).
        eapply same_trans; [apply same_write; apply HO; lia|]. fold px. fold m3.
        eapply same_trans; [apply (@same_int T O m3 _ (Z.of_nat j)); [apply Opriv|unfold m3, m2, m1, px; pm]|].
        eapply same_trans; [apply same_write; apply Opriv|]. fold m4. exact R.
      * intros j' Hj'. destruct (Nat.eq_dec j j') as [<-|D']; [|apply A; lia]. rewrite B; [unfold m4, m3; pm|discriminate|].
        intros j' Hj2 E. injection E as E. lia.
      * intros l Hl Hk. rewrite B; [|exact Hl|intros j' Hj'; apply Hk; lia]. unfold m4, m3, m2, m1.
        rewrite !put_other; [reflexivity|apply not_eq_sym; apply Hl|apply not_eq_sym; apply Hl|apply not_eq_sym; apply Hk; lia|apply not_eq_sym; apply Hl].
Qed.
Lemma row_run (f : fobj T) nc nVals cx cy i rest m : i * nc + nc <= nVals -> (forall j, j < nc -> O (Pixel (Z.of_nat (i * nc + j)))) ->
  exists m', same_run O m (row_body private_rows t (pure f) (Z.of_nat nc) (Z.of_nat nVals) cx cy i rest) m' rest /\
    (forall j', j' < nc -> m' (Pixel (Z.of_nat (i * nc + j'))) = Real (fo_value f (cx (Z.of_nat j')) (cy (Z.of_nat i)))) /\
    (forall l, (forall v, l <> pv v) -> (forall j', j' < nc -> l <> Pixel (Z.of_nat (i * nc + j'))) -> m' l = m l).
Proof.
  intros HV HO. unfold row_body. change (addr private_rows t Vi) with (pv Vi). change (addr private_rows t Vy) with (pv Vy). change (addr private_rows t Vj) with (pv Vj).
  set (m1 := put m (pv Vi) (Int (Z.of_nat i))). set (m2 := put m1 (pv Vy) (Real (cy (Z.of_nat i)))). set (m3 := put m2 (pv Vj) (Int 0)).
  destruct (@column_run f nc nVals cx rest i (cy (Z.of_nat i)) HV HO (S nc) 0 m3) as (m' & R & A & B); try lia; try (unfold m3, m2, m1; pm; fail).
  exists m'. split; [|split].
  - eapply same_trans; [apply same_write; apply Opriv|]. fold m1. eapply same_trans; [apply (@same_int T O m1 _ (Z.of_nat i)); [apply Opriv|unfold m1; pm]|].
    eapply same_trans; [apply same_write; apply Opriv|]. fold m2. eapply same_trans; [apply same_write; apply Opriv|]. fold m3. rewrite Nat2Z.id. exact R.
  - intros j' H. apply A. lia.
  - intros l Hl Hk. rewrite B; [|exact Hl|intros j' Hj'; apply Hk; lia]. unfold m3, m2, m1. rewrite !put_other; [reflexivity|apply not_eq_sym; apply Hl..].
Qed.

Definition row_sum (val : T -> T -> T) (xSize i : nat) (s : T) : T := fold_left (fun s j => nadd N s (val (nofZ N (Z.of_nat j + 1)) (nofZ N (Z.of_nat i + 1)))) (seq 0 xSize) s.
Lemma flux_loop_run (f : fobj T) xSize after i : forall fuel j m s,
  j <= xSize -> xSize < j + fuel -> m (pv Vj) = Int (Z.of_nat j) -> m (pv Vy) = Real (nofZ N (Z.of_nat i + 1)) -> m (pv VtotalComponentFlux) = Real s ->
  exists m', same_run O m (flux_loop N private_flux t (pure f) (Z.of_nat xSize) fuel after) m' after /\
    m' (pv VtotalComponentFlux) = Real (fold_left (fun s j => nadd N s (fo_value f (nofZ N (Z.of_nat j + 1)) (nofZ N (Z.of_nat i + 1)))) (seq j (xSize - j)) s) /\
    (forall l, (forall v, l <> pv v) -> m' l = m l).
Proof.
  induction fuel as [|fuel IH]; intros j m s Hj Hf Mj My Ms; [lia|].
  cbn [flux_loop]. change (addr private_flux t Vj) with (pv Vj). change (addr private_flux t Vx) with (pv Vx).
  change (addr private_flux t Vy) with (pv Vy). change (addr private_flux t VtotalComponentFlux) with (pv VtotalComponentFlux).
  destruct (Nat.eq_dec j xSize) as [->|D].
  - exists m. rewrite Nat.sub_diag. cbn [seq fold_left]. split; [|split; [exact Ms|reflexivity]]. eapply same_trans; [apply same_int; [apply Opriv|exact Mj]|]. rewrite Z.ltb_irrefl. apply same_refl.
  - replace (xSize - j) with (S (xSize - S j)) by lia. cbn [seq fold_left].
    set (x := nofZ N (Z.of_nat j + 1)). set (y := nofZ N (Z.of_nat i + 1)) in *. set (s' := nadd N s (fo_value f x y)).
    set (m1 := put m (pv Vx) (Real x)). set (m2 := put m1 (pv VtotalComponentFlux) (Real s')). set (m3 := put m2 (pv Vj) (Int (Z.of_nat j + 1))).
    destruct (IH (S j) m3 s') as (m' & R & A & B); try lia.
    + unfold m3. rewrite put_same. f_equal. lia.
    + unfold m3, m2, m1. pm.
    + unfold m3, m2, m1. pm.
    + exists m'. split; [|split; [exact A|]].
      * eapply same_trans; [apply same_int; [apply Opriv|exact Mj]|]. replace (Z.of_nat j <? Z.of_nat xSize)%Z with true by (symmetry; apply Z.ltb_lt; lia).
        fold x. eapply same_trans; [apply same_write; apply Opriv|]. fold m1.
        eapply same_trans; [apply (@same_real T O m1 _ x); [apply Opriv|unfold m1; pm]|].
        eapply same_trans; [apply (@same_real T O m1 _ y); [apply Opriv|unfold m1; pm]|]. cbn [pure pf_get].
        eapply same_trans; [apply (@same_real T O m1 _ s); [apply Opriv|unfold m1; pm]|]. fold s'.
        eapply same_trans; [apply same_write; apply Opriv|]. fold m2.
        eapply same_trans; [apply (@same_int T O m2 _ (Z.of_nat j)); [apply Opriv|unfold m2, m1; pm]|].
        eapply same_trans; [apply same_write; apply Opriv|]. fold m3. exact R.
      * intros l Hl. rewrite (B l Hl). unfold m3, m2, m1. rewrite !put_other; [reflexivity|apply not_eq_sym; apply Hl..].
Qed.
Lemma flux_body_run (f : fobj T) xSize i rest m s : m (pv VtotalComponentFlux) = Real s ->
  exists m', same_run O m (flux_body N private_flux t (pure f) (Z.of_nat xSize) i rest) m' rest /\
    m' (pv VtotalComponentFlux) = Real (row_sum (fo_value f) xSize i s) /\ (forall l, (forall v, l <> pv v) -> m' l = m l).
Proof.
  intros Ms. unfold flux_body. change (addr private_flux t Vi) with (pv Vi). change (addr private_flux t Vy) with (pv Vy). change (addr private_flux t Vj) with (pv Vj).
  set (m1 := put m (pv Vi) (Int (Z.of_nat i))). set (m2 := put m1 (pv Vy) (Real (nofZ N (Z.of_nat i + 1)))). set (m3 := put m2 (pv Vj) (Int 0)).
  destruct (@flux_loop_run f xSize rest i (S xSize) 0 m3 s) as (m' & R & A & B); try lia; try (unfold m3, m2, m1; pm; fail).
  exists m'. split; [|split].
  - eapply same_trans; [apply same_write; apply Opriv|]. fold m1. eapply same_trans; [apply (@same_int T O m1 _ (Z.of_nat i)); [apply Opriv|unfold m1; pm]|].
    eapply same_trans; [apply same_write; apply Opriv|]. fold m2. eapply same_trans; [apply same_write; apply Opriv|]. fold m3. rewrite Nat2Z.id. exact R.
  - rewrite A, Nat.sub_0_r. reflexivity.
  - intros l Hl. rewrite (B l Hl). unfold m3, m2, m1. rewrite !put_other; [reflexivity|apply not_eq_sym; apply Hl..].
Qed.
Definition rows_sum (val : T -> T -> T) (xSize : nat) (rows : list nat) (s : T) : T := fold_left (fun s i => row_sum val xSize i s) rows s.
Lemma flux_rows_run (f : fobj T) xSize last rows : forall m s, m (pv VtotalComponentFlux) = Real s ->
  exists m', same_run O m (fold_right (flux_body N private_flux t (pure f) (Z.of_nat xSize)) last rows) m' last /\
    m' (pv VtotalComponentFlux) = Real (rows_sum (fo_value f) xSize rows s) /\ (forall l, (forall v, l <> pv v) -> m' l = m l).
Proof.
  induction rows as [|i rows IH]; intros m s Ms; cbn [fold_right].
  - exists m. split; [apply same_refl|]. split; [exact Ms|reflexivity].
  - destruct (@flux_body_run f xSize i (fold_right (flux_body N private_flux t (pure f) (Z.of_nat xSize)) last rows) m s Ms) as (m1 & R & A & B).
    destruct (IH m1 _ A) as (m2 & R2 & A2 & B2). exists m2. split; [exact (same_trans R R2)|]. split; [exact A2|]. intros l Hl. rewrite (B2 l Hl). exact (B l Hl).
Qed.
Lemma flux_thread_run (f : fobj T) xSize rows m (a : T) : ~ O Tot ->
  let p := flux_first N private_flux t (fold_right (flux_body N private_flux t (pure f) (Z.of_nat xSize)) (flux_last N private_flux t) rows) in
  safe O m p /\ updates m p = [fun v => match v with Real a => Real (nadd N a (rows_sum (fo_value f) xSize rows (nofZ N 0))) | _ => Garbage end].
Proof.
  intros NT p. unfold flux_first in p. change (addr private_flux t VtotalComponentFlux) with (pv VtotalComponentFlux) in p.
  set (m1 := put m (pv VtotalComponentFlux) (Real (nofZ N 0))). destruct (@flux_rows_run f xSize (flux_last N private_flux t) rows m1 (nofZ N 0)) as (m2 & (F & U & S') & A & B).
  { unfold m1. pm. }
  set (s := rows_sum (fo_value f) xSize rows (nofZ N 0)) in *.
  assert (L : same_run O m2 (flux_last N private_flux t) m2 (Atomic Tot (fun v => match v with Real a => Real (nadd N a s) | _ => Garbage end) Stop)).
  { unfold flux_last. change (addr private_flux t VtotalComponentFlux) with (pv VtotalComponentFlux). apply (@same_real T O m2 _ s); [apply Opriv|exact A]. }
  destruct L as (F2 & U2 & S2). split.
  - split; [apply Opriv|]. fold m1. apply S'. apply S2. cbn. split; [reflexivity|exact I].
  - unfold p. cbn [updates]. fold m1. rewrite U, U2. reflexivity.
Qed.
End Solo.

(** ---- the rows of GetSingleFunctionImage ---- *)
Section Rows.
Variable T : Type.
Variable nThreads chunk : nat.
Hypothesis Hthreads : 0 < nThreads.
Variable f : fobj T.
Variable nRows nCols : nat.
Variable cx cy : Z -> T.
Definition row_new (k : nat) (r0 : T) : T := fo_value f (cx (Z.of_nat (Nat.modulo k nCols))) (cy (Z.of_nat (Nat.div k nCols))).
Lemma row_index i j : j < nCols -> Nat.div (i * nCols + j) nCols = i /\ Nat.modulo (i * nCols + j) nCols = j.
Proof. clear Hthreads. intros H. split; [rewrite Nat.div_add_l by lia; rewrite Nat.div_small by exact H; lia|rewrite Nat.add_comm, Nat.mod_add by lia; apply Nat.mod_small; exact H]. Qed.
Lemma row_ends (v : list T) : length v = nRows * nCols -> always_ends (row_config nThreads chunk (pure f) nRows (Z.of_nat nCols) cx cy v)
  (fun m => forall k r0, nth_error v k = Some r0 -> m (Pixel (Z.of_nat k)) = Real (row_new k r0)).
Proof.
  intros L. unfold row_config.
  destruct (@loop_ends T nThreads chunk nRows (fun t => row_body private_rows t (pure f) (Z.of_nat nCols) (Z.of_nat (length v)) cx cy) v (fun i => seq (i * nCols) nCols) row_new Hthreads) as (b & H).
  - intros i k Hi Hk. apply in_seq in Hk. rewrite L. nia.
  - intros i j k Hi Hj Hk Hk'. apply in_seq in Hk. apply in_seq in Hk'. nia.
  - intros t O i m rest Op Hi HO Hm.
    destruct (@row_run T t O Op f nCols (length v) cx cy i rest m) as (m' & R & A & B).
    + rewrite L. nia.
    + intros j Hj. apply HO. apply in_seq. lia.
    + exists m'. split; [exact R|]. split.
      * intros k r0 Hk _. apply in_seq in Hk. unfold row_new. destruct (@row_index i (k - i * nCols)) as (I1 & I2); [lia|]. replace (i * nCols + (k - i * nCols)) with k in I1, I2 by lia.
        rewrite I1, I2. rewrite <- A by lia. f_equal. f_equal. lia.
      * intros l Hl Hk. apply B; [exact Hl|]. intros j' Hj'. apply Hk. apply in_seq. lia.
  - exists b. intros sched c E. destruct (H sched c E) as (R & U & B & F & Pr). repeat split; auto. intros Fi k r0 Q.
    assert (Lk : k < length v) by (apply nth_error_Some; congruence). rewrite L in Lk. assert (P : 0 < nCols) by nia.
    apply (F Fi (Nat.div k nCols) k r0); [apply Nat.div_lt_upper_bound; nia| |exact Q].
    apply in_seq. pose proof (Nat.div_mod k nCols ltac:(lia)). pose proof (Nat.mod_upper_bound k nCols ltac:(lia)). nia.
Qed.
End Rows.

(** ---- the sum of FindTotalFluxes ---- *)
Section Flux.
Variable T : Type.
Variable N : Num T.
Variable nThreads chunk : nat.
Variable f : fobj T.
Variable xSize ySize : nat.
(** the sum of the rows of thread [t] *)
Definition share (t : nat) : T := rows_sum N (fo_value f) xSize (iterations nThreads chunk ySize t) (nofZ N 0).
Definition addto (s : T) : value T -> value T := fun v => match v with Real a => Real (nadd N a s) | _ => Garbage end.
Lemma apply_addto (ss : list T) : forall a, apply_all (map addto ss) (Real a) = Real (fold_left (nadd N) ss a).
Proof. induction ss as [|s ss IH]; intros a; [reflexivity|]. cbn. apply IH. Qed.
Lemma perm_map {A B} (g : A -> B) (l : list B) (xs : list A) : Permutation l (map g xs) -> exists ys, l = map g ys /\ Permutation ys xs.
Proof. intros H. apply Permutation_map_inv in H. destruct H as (ys & E & P). exists ys. split; [exact E|symmetry; exact P]. Qed.
Lemma flux_threads_nth t p : nth_error (snd (flux_config N nThreads chunk (pure f) xSize ySize)) t = Some p ->
  p = flux_first N private_flux t (fold_right (flux_body N private_flux t (pure f) (Z.of_nat xSize)) (flux_last N private_flux t) (iterations nThreads chunk ySize t)).
Proof.
  unfold flux_config. cbn [snd]. intros H. rewrite nth_error_map in H. destruct (nth_error (seq 0 nThreads) t) as [u|] eqn:Q; [|discriminate H]. injection H as <-.
  assert (L : t < length (seq 0 nThreads)) by (apply nth_error_Some; congruence). rewrite seq_length in L.
  apply nth_error_nth with (d := 0) in Q. rewrite seq_nth in Q by exact L. subst u. reflexivity.
Qed.
Lemma flux_ends : always_ends (flux_config N nThreads chunk (pure f) xSize ySize)
  (fun m => exists order, Permutation order (seq 0 nThreads) /\ m (Shared VtotalComponentFlux) = Real (fold_left (nadd N) (map share order) (nofZ N 0))).
Proof.
  set (Os := fun t l => exists x, l = Private t x). assert (NT : forall t, ~ Os t Tot) by (intros t (x & E); discriminate E).
  apply ends with (Os := Os).
  - intros t u l D (x & ->) (y & E). injection E as E _. contradiction.
  - exact NT.
  - intros t p H. apply flux_threads_nth in H. subst p. apply (@flux_thread_run T N t (Os t) (fun x => ex_intro _ x eq_refl) f xSize _ _ (nofZ N 0) (NT t)).
  - intros m fs _ Ht Hp.
    assert (U : concat (map (updates (fst (flux_config N nThreads chunk (pure f) xSize ySize))) (snd (flux_config N nThreads chunk (pure f) xSize ySize))) = map (fun t => addto (share t)) (seq 0 nThreads)).
    { unfold flux_config. cbn [fst snd]. rewrite map_map. induction (seq 0 nThreads) as [|t ts IH]; [reflexivity|]. cbn [map concat]. rewrite IH.
      destruct (@flux_thread_run T N t (Os t) (fun x => ex_intro _ x eq_refl) f xSize (iterations nThreads chunk ySize t) (put (fun _ => Garbage) (Shared VtotalComponentFlux) (Real (nofZ N 0))) (nofZ N 0) (NT t)) as (_ & U).
      unfold thread_prog. cbv zeta in U. rewrite U. reflexivity. }
    rewrite U in Hp. apply perm_map in Hp. destruct Hp as (order & -> & P). exists order. split; [exact P|].
    change (Shared VtotalComponentFlux) with Tot. rewrite Ht. cbn [fst flux_config]. change (Shared VtotalComponentFlux) with Tot. rewrite put_same. rewrite <- (map_map share addto). apply apply_addto.
Qed.
End Flux.
