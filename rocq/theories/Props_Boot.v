(** C37: bookkeeping of bootstrap resampling. *)
From Coq Require Import List Arith ZArith Lia Bool String Reals Lra Permutation.
From Verif Require Import Base Num Sums Params_Model Params_Spec Params_Proof Stats_Model Stats_Spec Stats_Proof
  Boot_Model Boot_Spec Boot_Proof.
Import ListNotations.
Local Open Scope list_scope.
Set Implicit Arguments.
Unset Strict Implicit.

(** Any arithmetic, any minimisers (which keep the length of the vector they are given), any
    generator, any model of blocks [bs] (whose values are the best-fit parameters), any section
    offset. The outcomes are those of [rounds]: every fit starts from the best-fit vector, after a new
    sample was drawn. Entry i of the matrix is the i-th value of the successful fits in order, centres
    in full-image coordinates, then zeros; the file (if any) has one line per successful fit; the
    number of successful fits is returned. *)
Theorem C37_matrix : forall (T W : Type) (N : Num T) (e : env T W) (bs : list (blk T)) flags ox oy nIter stat save seed w,
  blocks_ok bs -> DefineFunctionSets (List.length (sizes bs)) (starts 0 bs) = Ok flags ->
  keeps_length (LevMarFit e) -> keeps_length (NMSimplexFit e) ->
  let fit := if ((stat =? 1) || (stat =? 3))%Z then LevMarFit e else NMSimplexFit e in
  let start := if (0 <? seed)%Z then init_genrand e seed w else init_genrand e (clock e w) w in
  (0 <= fst (UseBootstrap e start))%Z ->
  let '(outcomes, w') := rounds (MakeBootstrapSample e) fit (flat bs) nIter (snd (UseBootstrap e start)) in
  let good := successes outcomes in
  BootstrapErrorsBase N e (mkMo (sizes bs) flags ox oy) (List.length (flat bs)) (flat bs) nIter stat
    (repeat (repeat (nofZ N 0) nIter) (List.length (flat bs))) save seed w =
  Ok (Z.of_nat (List.length good),
      map (fun i => column (nofZ N 0) i (map (in_full_image N ox oy bs) good)
                    ++ repeat (nofZ N 0) (nIter - List.length good)) (seq 0 (List.length (flat bs))),
      (if save then map (in_full_image_exactly N ox oy bs) good else []), w').
Proof.
  intros T W N e bs flags ox oy nIter stat save seed w Hb HF K1 K2 fit start HU.
  assert (EF : flags = flag_list bs) by (rewrite (defsets_ok Hb) in HF; apply Ok_inj in HF; auto). subst flags.
  assert (K : keeps_length (run_fit e stat)).
  { intros p u. unfold run_fit. destruct ((stat =? FITSTAT_CHISQUARE)%Z || (stat =? FITSTAT_POISSON_MLR)%Z); auto. }
  assert (Ef : forall b n u, rounds (MakeBootstrapSample e) fit b n u = rounds (MakeBootstrapSample e) (run_fit e stat) b n u).
  { intros b n. induction n as [|n IH]; intros u; auto. cbn [rounds].
    assert (E1 : run_fit e stat b (MakeBootstrapSample e u) = fit b (MakeBootstrapSample e u)).
    { unfold run_fit, fit, FITSTAT_CHISQUARE, FITSTAT_POISSON_MLR. destruct ((stat =? 1) || (stat =? 3))%Z; reflexivity. }
    rewrite E1. destruct (fit b (MakeBootstrapSample e u)) as [[x v] u']. rewrite IH. reflexivity. }
  rewrite Ef. pose proof (base_ok N K ox oy nIter save seed w Hb) as B.
  change (seed_generator e seed w) with start in B. destruct (UseBootstrap e start) as [s0 w1]. cbn [fst snd] in *.
  destruct B as [B|B]; [lia|]. exact B.
Qed.
Print Assumptions C37_matrix.

(** The same for the one-dimensional array filled for PyImfit: the successful vectors one after
    the other; the rest of the array is untouched. *)
Theorem C37_array : forall (T W : Type) (N : Num T) (e : env T W) (bs : list (blk T)) flags ox oy nIter stat seed w arr,
  blocks_ok bs -> DefineFunctionSets (List.length (sizes bs)) (starts 0 bs) = Ok flags ->
  keeps_length (LevMarFit e) -> keeps_length (NMSimplexFit e) ->
  List.length arr = nIter * List.length (flat bs) ->
  let fit := if ((stat =? 1) || (stat =? 3))%Z then LevMarFit e else NMSimplexFit e in
  let start := if (0 <? seed)%Z then init_genrand e seed w else init_genrand e (clock e w) w in
  (0 <= fst (UseBootstrap e start))%Z ->
  let '(outcomes, w') := rounds (MakeBootstrapSample e) fit (flat bs) nIter (snd (UseBootstrap e start)) in
  let good := successes outcomes in
  BootstrapErrorsArrayOnly N e (mkMo (sizes bs) flags ox oy) (List.length (flat bs)) (flat bs) nIter stat arr seed w =
  Ok (Z.of_nat (List.length good),
      concat (map (in_full_image N ox oy bs) good) ++ skipn (List.length good * List.length (flat bs)) arr, w').
Proof.
  intros T W N e bs flags ox oy nIter stat seed w arr Hb HF K1 K2 Ha fit start HU.
  assert (EF : flags = flag_list bs) by (rewrite (defsets_ok Hb) in HF; apply Ok_inj in HF; auto). subst flags.
  assert (K : keeps_length (run_fit e stat)).
  { intros p u. unfold run_fit. destruct ((stat =? FITSTAT_CHISQUARE)%Z || (stat =? FITSTAT_POISSON_MLR)%Z); auto. }
  assert (Ef : forall b n u, rounds (MakeBootstrapSample e) fit b n u = rounds (MakeBootstrapSample e) (run_fit e stat) b n u).
  { intros b n. induction n as [|n IH]; intros u; auto. cbn [rounds].
    assert (E1 : run_fit e stat b (MakeBootstrapSample e u) = fit b (MakeBootstrapSample e u)).
    { unfold run_fit, fit, FITSTAT_CHISQUARE, FITSTAT_POISSON_MLR. destruct ((stat =? 1) || (stat =? 3))%Z; reflexivity. }
    rewrite E1. destruct (fit b (MakeBootstrapSample e u)) as [[x v] u']. rewrite IH. reflexivity. }
  rewrite Ef. pose proof (flat_array_ok N K ox oy seed w Hb Ha) as B.
  change (seed_generator e seed w) with start in B. destruct (UseBootstrap e start) as [s0 w1]. cbn [fst snd] in *.
  destruct B as [B|B]; [lia|]. exact B.
Qed.
Print Assumptions C37_array.

(** When the bootstrap set-up fails, -1 is returned and nothing is stored, written or summarised. *)
Theorem C37_setup_failure : forall (T W : Type) (N : Num T) (e : env T W) m n best nIter stat array arr save seed w,
  let start := if (0 <? seed)%Z then init_genrand e seed w else init_genrand e (clock e w) w in
  (fst (UseBootstrap e start) < 0)%Z ->
  BootstrapErrorsBase N e m n best nIter stat array save seed w = Ok ((-1)%Z, array, [], snd (UseBootstrap e start)) /\
  BootstrapErrorsArrayOnly N e m n best nIter stat arr seed w = Ok ((-1)%Z, arr, snd (UseBootstrap e start)) /\
  forall qsort labels nImages fixed multi,
    BootstrapErrors N qsort e m labels nImages n best fixed nIter stat save seed multi w = Ok ((-1)%Z, None, [], snd (UseBootstrap e start)).
Proof.
  intros T W N e m n best nIter stat array arr save seed w start H.
  assert (B : forall a, BootstrapErrorsBase N e m n best nIter stat a save seed w = Ok ((-1)%Z, a, [], snd (UseBootstrap e start))).
  { intros a. unfold BootstrapErrorsBase. change (seed_generator e seed w) with start. destruct (UseBootstrap e start) as [s w1].
    cbn [fst snd] in *. now rewrite (proj2 (Z.ltb_lt _ _)) by auto. }
  split; [apply B|]. split.
  - unfold BootstrapErrorsArrayOnly. change (seed_generator e seed w) with start. destruct (UseBootstrap e start) as [s w1].
    cbn [fst snd] in *. now rewrite (proj2 (Z.ltb_lt _ _)) by auto.
  - intros. unfold BootstrapErrors. rewrite B. reflexivity.
Qed.
Print Assumptions C37_setup_failure.

(** In exact arithmetic the stored vectors and the lines of the file agree: centres get the offset
    once, other parameters are unchanged. *)
Theorem C37_offset_once : forall ox oy (bs : list (blk R)) v,
  in_full_image NumR ox oy bs v = on_centres (fun x => x + IZR ox)%R (fun y => y + IZR oy)%R (fun p => p) bs v /\
  in_full_image_exactly NumR ox oy bs v = on_centres (fun x => x + IZR ox)%R (fun y => y + IZR oy)%R (fun p => p) bs v.
Proof.
  intros ox oy bs v. split; [|reflexivity]. unfold in_full_image. revert v. induction bs as [|b bs IH]; intros v; auto.
  cbn [on_centres]. destruct v as [|x [|y r]]; auto. rewrite IH. cbn [nadd nofZ NumR]. f_equal. f_equal. f_equal.
  apply map_ext. intros p. lra.
Qed.
Print Assumptions C37_offset_once.

(** With fewer than three successful fits no statistics are printed. Otherwise there is one line per
    parameter: fixed parameters with their value, the others with the 68% interval, mean and
    standard deviation of the parameter's row of the matrix: the successful values followed by
    zeros for the failed rounds. *)
Theorem C37_summary : forall (T W : Type) (N : Num T) (e : env T W) qsort (bs : list (blk T)) flags ox oy labels nImages fixed nIter stat (save : bool) seed w,
  blocks_ok bs -> DefineFunctionSets (List.length (sizes bs)) (starts 0 bs) = Ok flags ->
  keeps_length (LevMarFit e) -> keeps_length (NMSimplexFit e) ->
  let fit := if ((stat =? 1) || (stat =? 3))%Z then LevMarFit e else NMSimplexFit e in
  let start := if (0 <? seed)%Z then init_genrand e seed w else init_genrand e (clock e w) w in
  (0 <= fst (UseBootstrap e start))%Z ->
  let n := List.length (flat bs) in
  List.length fixed = n -> List.length labels = n ->
  let '(outcomes, w') := rounds (MakeBootstrapSample e) fit (flat bs) nIter (snd (UseBootstrap e start)) in
  let good := successes outcomes in
  let file := if save then map (in_full_image_exactly N ox oy bs) good else [] in
  let row i := column (nofZ N 0) i (map (in_full_image N ox oy bs) good) ++ repeat (nofZ N 0) (nIter - List.length good) in
  let run := BootstrapErrors N qsort e (mkMo (sizes bs) flags ox oy) labels nImages n (flat bs) fixed nIter stat save seed false w in
  (List.length good < 3 -> run = Ok (Z.of_nat (List.length good), None, file, w')) /\
  (3 <= List.length good ->
   (forall i, nth_error fixed i = Some 0%Z -> exists ci, ConfidenceInterval N qsort (row i) = Ok ci) ->
   exists lines, run = Ok (Z.of_nat (List.length good), Some lines, file, w') /\ List.length lines = n /\
    forall i l b f, nth_error labels i = Some l -> nth_error (flat bs) i = Some b -> nth_error fixed i = Some f ->
      (f <> 0%Z -> nth_error lines i = Some (Fixed l b)) /\
      (f = 0%Z -> forall lo hi sorted, ConfidenceInterval N qsort (row i) = Ok (lo, hi, sorted) ->
         nth_error lines i = Some (Stat l b (nsub N hi b) (nsub N b lo) lo hi (ndiv N (nsub N hi lo) (nofZ N 2))
                                        (Mean N sorted) (StandardDeviation N (row i))))).
Proof.
  intros T W N e qsort bs flags ox oy labels nImages fixed nIter stat save seed w Hb HF K1 K2 fit start HU n Lf Ll.
  pose proof (@C37_matrix T W N e bs flags ox oy nIter stat save seed w Hb HF K1 K2 HU) as B.
  fold fit in B. fold start in B.
  destruct (rounds (MakeBootstrapSample e) fit (flat bs) nIter (snd (UseBootstrap e start))) as [outcomes w'].
  cbv zeta in *. set (good := successes outcomes) in *. fold n in B.
  unfold BootstrapErrors. rewrite B. cbn [bind]. split.
  - intros H. unfold MIN_ITERATIONS_FOR_STATISTICS. rewrite (proj2 (Z.ltb_lt _ _)) by lia. reflexivity.
  - intros H HC. unfold MIN_ITERATIONS_FOR_STATISTICS. rewrite (proj2 (Z.ltb_ge _ _)) by lia.
    set (row := fun i => column (nofZ N 0) i (map (in_full_image N ox oy bs) good) ++ repeat (nofZ N 0) (nIter - List.length good)) in *.
    destruct (@summary_ok T N qsort (flat bs) (map row (seq 0 n)) fixed labels n) as (lines & E & L & P).
    + now rewrite map_length, seq_length.
    + reflexivity.
    + auto.
    + auto.
    + intros i f r H1 H2 ->. assert (Hi : i < n) by (rewrite <- Lf; apply nth_error_Some; congruence).
      rewrite nth_error_seq_map in H2 by auto. injection H2 as <-. apply HC. auto.
    + exists lines. rewrite E. cbn [bind]. split; [reflexivity|]. split; [auto|].
      intros i l b f H1 H2 H3. assert (Hi : i < n) by (rewrite <- Lf; apply nth_error_Some; congruence).
      apply (P i l b (row i) f H1 H2); auto. now rewrite nth_error_seq_map.
Qed.
Print Assumptions C37_summary.

(** If every round succeeded, the row is exactly the successful values. *)
Theorem C37_all_succeeded_partial : forall (T W : Type) sample (fit : list T -> W -> Z * list T * W) best n w (z : T),
  let good := successes (fst (rounds sample fit best n w)) in
  List.length good = n -> repeat z (n - List.length good) = [].
Proof. intros T W sample fit best n w z good H. rewrite H, Nat.sub_diag. reflexivity. Qed.
Print Assumptions C37_all_succeeded_partial.

(** "Failed fits are excluded from the statistics" is false: each counts as a zero. In exact
    arithmetic the printed mean of k successful values in n rounds is k/n times their average. *)
Theorem C37_failures_refuted : forall qsort (vals : list R) n, (forall v, Permutation v (qsort v)) ->
  vals <> [] -> List.length vals <= n ->
  Mean NumR (qsort (vals ++ repeat 0%R (n - List.length vals)))
    = (INR (List.length vals) / INR n * average vals)%R /\
  (List.length vals < n -> average vals <> 0%R ->
   Mean NumR (qsort (vals ++ repeat 0%R (n - List.length vals))) <> average vals).
Proof.
  intros qsort vals n HP Hv Hn.
  assert (L0 : (0 < INR (List.length vals))%R) by (apply lt_0_INR; destruct vals; [congruence|cbn; lia]).
  assert (L1 : (INR (List.length vals) <= INR n)%R) by now apply le_INR.
  assert (TP : forall a b : list R, Permutation a b -> total a = total b).
  { unfold total, rsuml. induction 1; cbn [fold_right]; lra. }
  assert (E : Mean NumR (qsort (vals ++ repeat 0%R (n - List.length vals))) = (INR (List.length vals) / INR n * average vals)%R).
  { rewrite Mean_exact. unfold average, size. rewrite <- (TP _ _ (HP _)), <- (Permutation_length (HP _)).
    rewrite app_length, repeat_length. replace (List.length vals + (n - List.length vals)) with n by lia.
    assert (T0 : total (vals ++ repeat 0%R (n - List.length vals)) = total vals).
    { unfold total, rsuml. rewrite fold_right_app. replace (fold_right Rplus 0%R (repeat 0%R (n - List.length vals))) with 0%R; auto.
      clear. induction (n - List.length vals) as [|m IH]; cbn; [auto|]. rewrite <- IH. lra. }
    rewrite T0. field. lra. }
  split; auto. intros Hlt Ha. rewrite E. apply lt_INR in Hlt. intros Hc.
  assert (Hq : (INR (List.length vals) / INR n = 1)%R).
  { apply Rmult_eq_reg_r with (average vals); auto. lra. }
  apply (f_equal (fun x => x * INR n)%R) in Hq. unfold Rdiv in Hq. rewrite Rmult_assoc, Rinv_l in Hq by lra. lra.
Qed.
Print Assumptions C37_failures_refuted.

(** A concrete run in binary64: three rounds, each of which returns the best fit again, of one function
    with one parameter, in an image section starting 200 columns and 30 rows into the image. *)
Definition demo_env (f : nat -> list F64 -> Z * list F64) : env F64 nat :=
  mkEnv (fun _ _ => 0%nat) (fun _ => 0%Z) (fun w => (0%Z, w)) (fun w => S w)
        (fun p w => (f w p, w)) (fun p w => (f w p, w)).
Definition demo_fit : list (blk F64) := [mkBlk (f_ofZ 100) (f_ofZ 50) [[f_ofZ 10]]].
Definition demo_run (m : Libm) (f : nat -> list F64 -> Z * list F64) (nIter : nat) :=
  BootstrapErrors (NumF m) isort (demo_env f) (mkMo (sizes demo_fit) [true] 200 30) ["X0"; "Y0"; "I_0"]%string 1 3 (flat demo_fit)
    [0; 0; 0]%Z nIter 1 true 5 false 0%nat.
Definition is_stat (l : option (line F64)) (plus minus lower upper mean : Z) : bool :=
  match l with
  | Some (Stat _ _ p q lo hi _ mn _) => f_eqb p (f_ofZ plus) && f_eqb q (f_ofZ minus) && f_eqb lo (f_ofZ lower) && f_eqb hi (f_ofZ upper)
      && f_eqb mn (f_ofZ mean)
  | _ => false
  end.

Example C37_hyp_example : blocks_ok demo_fit /\ DefineFunctionSets (List.length (sizes demo_fit)) (starts 0 demo_fit) = Ok [true] /\
  (forall f, (forall w p, List.length (snd (f w p)) = List.length p) -> keeps_length (LevMarFit (demo_env f)) /\ keeps_length (NMSimplexFit (demo_env f))).
Proof.
  split; [split; [discriminate|repeat constructor; discriminate]|]. split; [reflexivity|].
  intros f H. split; intros p w; apply H.
Qed.

(** The interval of a centre is in full-image coordinates but the best-fit value it is compared with
    is not: although every fit returned the best fit, its errors come out as +200 and -(-200). *)
Theorem C37_best_fit_refuted : forall m,
  match demo_run m (fun _ p => (1%Z, p)) 3 with
  | Ok (k, Some lines, file, _) => (k = 3)%Z /\ is_stat (nth_error lines 0) 200 (-200) 300 300 300 = true /\
      is_stat (nth_error lines 2) 0 0 10 10 10 = true /\ List.length file = 3
  | _ => False
  end.
Proof. intros m. vm_compute. repeat split; reflexivity. Qed.
Print Assumptions C37_best_fit_refuted.

(** Five rounds, two of which fail: the three others all give the value 10, yet the printed
    interval is [0, 10] and the printed mean 6. *)
Theorem C37_failed_run_refuted : forall m,
  match demo_run m (fun w p => (if (w =? 2) || (w =? 4) then 0%Z else 1%Z, p)) 5 with
  | Ok (k, Some lines, file, _) => (k = 3)%Z /\ is_stat (nth_error lines 2) 0 10 0 10 6 = true /\ List.length file = 3
  | _ => False
  end.
Proof. intros m. vm_compute. repeat split; reflexivity. Qed.
Print Assumptions C37_failed_run_refuted.

(** The summary for several images is undefined unless there are exactly two of them, and then
    prints one line too many (the last image-description parameter twice). *)
Theorem C37_multi_refuted : forall (T : Type) (N : Num T) qsort best array nParams nImages fixed labels lines,
  (1 <= nImages)%Z -> 0 < nParams ->
  PrintBootstrapSummaryMultimfit N qsort best array nParams nImages fixed labels = Ok lines ->
  nImages = 2%Z /\ (4 <= nParams -> List.length lines = nParams + 1).
Proof. intros. eapply multi_ok_only_two; eauto. Qed.
Print Assumptions C37_multi_refuted.
