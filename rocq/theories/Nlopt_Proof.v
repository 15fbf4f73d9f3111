From Coq Require Import ZArith List Bool String Lia Reals Lra.
From Verif Require Import Nlopt_Spec.
Import ListNotations.
Set Implicit Arguments. Unset Strict Implicit.

Section P.
Variable T : Type.
Variable N : Num T.

Lemma nth_error_length_lt {A} (l : list A) i x : nth_error l i = Some x -> (i < List.length l)%nat.
Proof. intros H. apply nth_error_Some. congruence. Qed.

Lemma make_bounds_ok n start (ls : list (Limits T)) :
  (n <= List.length start)%nat -> (n <= List.length ls)%nat ->
  exists lo hi, make_bounds n start ls = Ok (lo, hi) /\ List.length lo = n /\ List.length hi = n /\
    forall i s l, (i < n)%nat -> nth_error start i = Some s -> nth_error ls i = Some l ->
      (nth i lo None, nth i hi None) = bounds_of s l.
Proof.
  intros H1 H2. unfold make_bounds.
  match goal with |- context [for_ n ?f ?s0] => 
    destruct (@for_inv _ (fun k (b : list (option T) * list (option T)) =>
      List.length (fst b) = k /\ List.length (snd b) = k /\
      forall i s l, (i < k)%nat -> nth_error start i = Some s -> nth_error ls i = Some l ->
        (nth i (fst b) None, nth i (snd b) None) = bounds_of s l) f n s0) as (b & E & P) end.
  - cbn. repeat split; auto. intros; lia.
  - intros i (lo, hi) Hi (La & Lb & P). cbn [fst snd] in *.
    destruct (@get_lt _ ls i) as (l & El); [lia|]. rewrite El. cbn [bind].
    destruct (@get_lt _ start i) as (s & Es); [lia|]. rewrite Es. cbn [bind].
    apply get_Ok_iff in El, Es.
    destruct (bounds_of s l) as (a, c) eqn:B. eexists. split; [reflexivity|]. cbn [fst snd].
    rewrite !app_length. cbn [List.length]. split; [lia|]. split; [lia|].
    intros j s' l' Hj Es' El'. destruct (Nat.eq_dec j i) as [->|Hne].
    + rewrite Es in Es'. rewrite El in El'. injection Es' as <-. injection El' as <-.
      rewrite !app_nth2 by lia. rewrite La, Lb, Nat.sub_diag. cbn. auto.
    + rewrite !app_nth1 by lia. apply P; auto; lia.
  - destruct b as (lo, hi). destruct P as (La & Lb & P). exists lo, hi. auto.
Qed.

Lemma optimize_trace stat intr r : forall n c,
  let '(_, c', tr) := optimize N stat intr r n c in
  c' = (c + Z.of_nat (List.length tr))%Z /\ Forall (fun p => snd p = stat (fst p)) tr.
Proof.
  induction r as [x k IH|s x f]; intros n c; cbn [optimize].
  - specialize (IH (stat x) (is_nan N (stat x) || intr n)%bool (S n) (c + 1)%Z).
    destruct (optimize N stat intr (k _ _) (S n) (c + 1)) as ((a & c') & tr). destruct IH as (-> & F).
    cbn [List.length]. split; [lia|]. constructor; auto.
  - cbn. split; [lia|constructor].
Qed.

Lemma optimize_within stat intr lo hi r : stays_within N lo hi r -> forall n c,
  let '((_, x, _), _, tr) := optimize N stat intr r n c in
  forall y, y = x \/ In y (map fst tr) ->
  List.length y = List.length lo /\
  (forall i v, nth_error y i = Some v -> within N (nth i lo None) (nth i hi None) v).
Proof.
  induction 1 as [x k Hl Hb Hk IH|s x f Hl Hb]; intros n c; cbn [optimize].
  - specialize (IH (stat x) (is_nan N (stat x) || intr n)%bool (S n) (c + 1)%Z).
    destruct (optimize N stat intr (k _ _) (S n) (c + 1)) as ((((s & y) & f) & c') & tr).
    intros z [->|[<-|Hz]]; [apply IH; auto|auto|apply IH; auto].
  - intros y [->|[]]. auto.
Qed.

Lemma user_bounds_two_sided (s : T) l : two_sided l -> user_bounds s l = bounds_of s l.
Proof.
  unfold two_sided, user_bounds, bounds_of. destruct (fixed l); auto. intros [A|A]; [discriminate|].
  rewrite A. destruct (limited1 l); reflexivity.
Qed.

Lemma int_mul_ok n : (Z.of_nat n <= 200000)%Z -> int_mul (Z.of_nat n) MAXEVAL_BASE = Ok (Z.of_nat n * 10000)%Z.
Proof.
  intros H. unfold int_mul, MAXEVAL_BASE.
  destruct ((_ <=? _)%Z && _) eqn:E; auto. apply andb_false_iff in E. rewrite !Z.leb_gt in E. lia.
Qed.

(** the settings *)
Lemma settings_proof a id lib stat intr n start ls ftol rs c o c' :
  List.length start = n -> List.length ls = n ->
  fit_with N a id lib stat intr n start ls ftol rs c = Ok (o, c') ->
  exists s, oc_settings o = Some s /\ algorithm s = a /\ tol s = ftol /\ maxeval s = (Z.of_nat n * 10000)%Z /\
    List.length (lower s) = n /\ List.length (upper s) = n /\
    forall i v l, nth_error start i = Some v -> nth_error ls i = Some l ->
      (nth i (lower s) None, nth i (upper s) None) = bounds_of v l.
Proof.
  intros H1 H2 E. unfold fit_with in E.
  destruct (@make_bounds_ok n start ls) as (lo & hi & Eb & La & Lb & P); try lia. rewrite Eb in E. cbn [bind fst snd] in E.
  apply bind_Ok in E. destruct E as (me & Em & E). cbv zeta in E.
  match type of E with context [optimize N stat intr ?r 0 c] => destruct (optimize N stat intr r 0 c) as ((((st & x) & f) & cc) & tr) end.
  apply Ok_inj in E. injection E as <- <-. eexists. split; [reflexivity|]. cbn [algorithm tol maxeval lower upper].
  repeat split; auto.
  - unfold int_mul, MAXEVAL_BASE in Em. destruct ((_ <=? _)%Z && _); [|discriminate]. apply Ok_inj in Em. auto.
  - intros i v l Hv Hl. apply P; auto. apply nth_error_length_lt in Hv. lia.
Qed.

Lemma within_proof a id lib stat intr n start ls ftol rs c o c' :
  respects_bounds N lib -> List.length start = n -> List.length ls = n -> Forall (@two_sided T) ls ->
  acceptable N start ls start ->
  fit_with N a id lib stat intr n start ls ftol rs c = Ok (o, c') ->
  forall x, x = oc_params o \/ In x (map fst (oc_trace o)) -> acceptable N start ls x.
Proof.
  intros HB H1 H2 H3 HA E x Hx. unfold fit_with in E.
  destruct (@make_bounds_ok n start ls) as (lo & hi & Eb & La & Lb & P); try lia. rewrite Eb in E. cbn [bind fst snd] in E.
  apply bind_Ok in E. destruct E as (me & Em & E). cbv zeta in E.
  assert (TS : forall l, In l ls -> two_sided l) by (apply Forall_forall; auto).
  match type of E with context [optimize N stat intr (lib ?s start) 0 c] =>
    assert (SW : stays_within N lo hi (lib s start)) by
     (apply (HB s start); cbn [lower upper]; try lia; intros i v Hv;
      destruct (nth_error ls i) as [l|] eqn:Hl;
      [ destruct HA as (_ & HA); specialize (HA i v l v Hv Hl Hv); rewrite user_bounds_two_sided in HA by (apply TS; eapply nth_error_In; eauto);
        rewrite <- (P i v l) in HA; auto; apply nth_error_length_lt in Hv; lia
      | apply nth_error_None in Hl; apply nth_error_length_lt in Hv; lia ]);
    pose proof (@optimize_within stat intr lo hi (lib s start) SW 0%nat c) as W;
    destruct (optimize N stat intr (lib s start) 0 c) as ((((st & y) & f) & cc) & tr) end.
  apply Ok_inj in E. injection E as <- <-. cbn [oc_params oc_trace] in Hx.
  destruct (W x Hx) as (L & B). split; [lia|].
  intros i v l s Hv Hl Hs. rewrite user_bounds_two_sided.
  - pose proof (B i v Hv) as B'. rewrite <- (P i s l); auto. apply nth_error_length_lt in Hs. lia.
  - apply Forall_forall with (x := l) in H3; auto. eapply nth_error_In; eauto.
Qed.

Lemma report_proof a id lib stat intr n start ls ftol c o c' :
  fit_with N a id lib stat intr n start ls ftol true c = Ok (o, c') ->
  exists r, oc_report o = Some r /\ rp_solver r = id /\ rp_initial r = stat start /\
    rp_evals r = (c + Z.of_nat (List.length (oc_trace o)))%Z /\ c' = rp_evals r /\
    Forall (fun p => snd p = stat (fst p)) (oc_trace o).
Proof.
  intros E. unfold fit_with in E. apply bind_Ok in E. destruct E as (b & Eb & E).
  apply bind_Ok in E. destruct E as (me & Em & E). cbv zeta in E.
  match type of E with context [optimize N stat intr ?r 0 c] =>
    pose proof (@optimize_trace stat intr r 0%nat c) as W;
    destruct (optimize N stat intr r 0 c) as ((((st & y) & f) & cc) & tr) end.
  apply Ok_inj in E. injection E as <- <-. destruct W as (-> & F). eexists. split; [reflexivity|]. cbn. auto.
Qed.

Lemma fit_defined a id lib stat intr n start ls ftol rs c :
  List.length start = n -> List.length ls = n -> (n <= Z.to_nat 200000)%nat ->
  exists o c', fit_with N a id lib stat intr n start ls ftol rs c = Ok (o, c').
Proof.
  intros H1 H2 H3. unfold fit_with.
  destruct (@make_bounds_ok n start ls) as (lo & hi & Eb & La & Lb & P); try lia. rewrite Eb. cbn [bind fst snd].
  rewrite int_mul_ok by lia. cbn [bind]. cbv zeta.
  match goal with |- context [optimize N stat intr ?r 0 c] => destruct (optimize N stat intr r 0 c) as ((((st & x) & f) & cc) & tr) end.
  eauto.
Qed.

(** stopping *)
Lemma optimize_stop stat intr r : obeys_stop r -> forall n c,
  let '((s, _, _), _, tr) := optimize N stat intr r n c in
  forall k p, nth_error tr k = Some p -> (is_nan N (snd p) = true \/ intr (n + k)%nat = true) ->
    s = (-5)%Z /\ List.length tr = S k.
Proof.
  induction 1 as [x k Hs Hk IH|s x f]; intros n c; cbn [optimize].
  - destruct (is_nan N (stat x) || intr n)%bool eqn:St.
    + destruct (Hs (stat x)) as (x' & f' & ->). cbn [optimize].
      intros j p Hj Hp. destruct j as [|j]; [auto|]. destruct j; discriminate.
    + specialize (IH (stat x) (S n) (c + 1)%Z).
      destruct (optimize N stat intr (k _ _) (S n) (c + 1)) as ((((s & y) & f) & c') & tr).
      intros j p Hj Hp. destruct j as [|j].
      * cbn in Hj. injection Hj as <-. cbn [snd] in Hp. rewrite Nat.add_0_r in Hp.
        apply orb_false_iff in St. destruct St, Hp; congruence.
      * cbn [nth_error] in Hj. specialize (IH j p Hj). replace (S n + j)%nat with (n + S j)%nat in IH by lia.
        destruct (IH Hp) as (-> & L). split; [reflexivity|]. cbn. lia.
  - intros k p Hk. destruct k; discriminate.
Qed.

Lemma stop_proof a id lib stat intr n start ls ftol rs c o c' :
  honours_force_stop lib ->
  fit_with N a id lib stat intr n start ls ftol rs c = Ok (o, c') ->
  forall k p, nth_error (oc_trace o) k = Some p -> (is_nan N (snd p) = true \/ intr k = true) ->
    oc_status o = (-5)%Z /\ List.length (oc_trace o) = S k.
Proof.
  intros HO E. unfold fit_with in E. apply bind_Ok in E. destruct E as (b & Eb & E).
  apply bind_Ok in E. destruct E as (me & Em & E). cbv zeta in E.
  match type of E with context [optimize N stat intr (lib ?s start) 0 c] =>
    pose proof (@optimize_stop stat intr (lib s start) (HO s start) 0%nat c) as W;
    destruct (optimize N stat intr (lib s start) 0 c) as ((((st & y) & f) & cc) & tr) end.
  apply Ok_inj in E. injection E as <- <-. cbn [oc_status oc_trace]. exact W.
Qed.

(** counting over several fits *)
Lemma fits_counts fit n : forall c os,
  (forall c o c', fit c = Ok (o, c') -> exists r, oc_report o = Some r /\ c' = rp_evals r /\
     rp_evals r = (c + Z.of_nat (List.length (oc_trace (T:=T) o)))%Z) ->
  fits fit n c = Ok os ->
  forall k o, nth_error os k = Some o -> exists r, oc_report o = Some r /\
    rp_evals r = (c + Z.of_nat (List.length (flat_map (@oc_trace T) (firstn (S k) os))))%Z.
Proof.
  induction n as [|n IH]; intros c os HF E k o Hk; cbn [fits] in E.
  - apply Ok_inj in E. subst. destruct k; discriminate.
  - apply bind_Ok in E. destruct E as ((o0 & c0) & E0 & E). cbv zeta in E.
    apply bind_Ok in E. destruct E as (rest & Er & E). apply Ok_inj in E. subst os.
    destruct (HF _ _ _ E0) as (r & Hr & Hc & He). destruct k as [|k].
    + cbn in Hk. injection Hk as <-. exists r. split; auto. cbn [firstn flat_map]. rewrite app_nil_r. auto.
    + cbn [nth_error] in Hk. destruct (IH c0 rest HF Er k o Hk) as (r' & Hr' & He'). exists r'. split; auto.
      cbn [firstn flat_map] in *. rewrite app_length. lia.
Qed.
End P.

Lemma names_proof name : ValidNLOptSolverName name = true <->
  In name ["COBYLA"; "BOBYQA"; "NEWUOA"; "PRAXIS"; "NM"; "SBPLX"]%string.
Proof.
  unfold ValidNLOptSolverName, algorithmMap. cbn [find_algorithm].
  repeat match goal with |- context [String.eqb ?a name] => destruct (String.eqb_spec a name) as [<-|] end;
    cbn; split; auto; try tauto; try discriminate.
Qed.
Lemma distinct_proof n1 n2 a : find_algorithm algorithmMap n1 = Some a -> find_algorithm algorithmMap n2 = Some a -> n1 = n2.
Proof.
  unfold algorithmMap. cbn [find_algorithm].
  repeat match goal with |- context [String.eqb ?a n1] => destruct (String.eqb_spec a n1) as [<-|] end;
  repeat match goal with |- context [String.eqb ?a n2] => destruct (String.eqb_spec a n2) as [<-|] end; congruence.
Qed.

Lemma bounds_proof : forall T (N : Num T) a id lib stat intr n start ls ftol rs c o c',
  List.length start = n -> List.length ls = n ->
  fit_with N a id lib stat intr n start ls ftol rs c = Ok (o, c') ->
  exists s, oc_settings o = Some s /\ algorithm s = a /\ tol s = ftol /\ maxeval s = (Z.of_nat n * 10000)%Z /\
    List.length (lower s) = n /\ List.length (upper s) = n /\
    forall i v l, nth_error start i = Some v -> nth_error ls i = Some l ->
      (fixed l = true -> nth i (lower s) None = Some v /\ nth i (upper s) None = Some v) /\
      (fixed l = false -> limited0 l = true -> limited1 l = true ->
         nth i (lower s) None = Some (lim0 l) /\ nth i (upper s) None = Some (lim1 l)) /\
      (fixed l = false -> limited0 l = false -> limited1 l = false ->
         nth i (lower s) None = None /\ nth i (upper s) None = None).
Proof.
  intros T N a id lib stat intr n start ls ftol rs c o c' H1 H2 E.
  destruct (settings_proof H1 H2 E) as (s & A1 & A2 & A3 & A4 & A5 & A6 & A7). exists s.
  do 6 (split; [assumption|]). intros i v l Hv Hl. specialize (A7 i v l Hv Hl).
  unfold bounds_of in A7. split; [|split].
  - intros F. rewrite F in A7. injection A7; auto.
  - intros F L0 L1. rewrite F, L0, L1 in A7. injection A7; auto.
  - intros F L0 L1. rewrite F, L0, L1 in A7. injection A7; auto.
Qed.

Lemma counts_proof : forall T (N : Num T) a id lib stat intr np start ls ftol n os,
  fits (fit_with N a id lib stat intr np start ls ftol true) n 0 = Ok os ->
  forall k o, nth_error os k = Some o -> exists r, oc_report o = Some r /\
    rp_evals r = Z.of_nat (List.length (flat_map (@oc_trace T) (firstn (S k) os))).
Proof.
  intros T N a id lib stat intr np start ls ftol n os E k o Hk.
  apply (fits_counts (c := 0%Z) (n := n) (fit := fit_with N a id lib stat intr np start ls ftol true)); auto.
  intros c o' c' E'. destruct (report_proof E') as (r & A & _ & _ & B & C & _). exists r. auto.
Qed.

Lemma unknown_proof : forall T (N : Num T) name lib stat intr n start ls ftol rs c,
  ~ In name ["COBYLA"; "BOBYQA"; "NEWUOA"; "PRAXIS"; "NM"; "SBPLX"]%string ->
  exists o, NLOptFit N name lib stat intr n start ls ftol rs c = Ok (o, c) /\
    oc_status o = (-1)%Z /\ oc_params o = start /\ oc_trace o = [].
Proof.
  intros T N name lib stat intr n start ls ftol rs c H. rewrite <- names_proof in H.
  unfold ValidNLOptSolverName in H. unfold NLOptFit. destruct (find_algorithm algorithmMap name); [tauto|].
  eexists. split; [reflexivity|]. auto.
Qed.

Lemma selected_proof : forall T (N : Num T) name lib stat intr n start ls ftol rs c o c',
  List.length start = n -> List.length ls = n ->
  NLOptFit N name lib stat intr n start ls ftol rs c = Ok (o, c') ->
  forall s, oc_settings o = Some s ->
  algorithm s = match name with
    | "COBYLA" => LN_COBYLA | "BOBYQA" => LN_BOBYQA | "NEWUOA" => LN_NEWUOA_BOUND
    | "PRAXIS" => LN_PRAXIS | "NM" => LN_NELDERMEAD | _ => LN_SBPLX end%string.
Proof.
  intros T N name lib stat intr n start ls ftol rs c o c' H1 H2 E s Hs. unfold NLOptFit in E.
  destruct (find_algorithm algorithmMap name) as [a|] eqn:F.
  - destruct (settings_proof H1 H2 E) as (s' & A1 & A2 & _). rewrite Hs in A1. injection A1 as <-.
    rewrite A2. unfold algorithmMap in F. cbn [find_algorithm] in F.
    repeat match type of F with context [String.eqb ?a name] => destruct (String.eqb_spec a name) as [<-|]; [injection F as <-; reflexivity|] end.
    discriminate.
  - apply Ok_inj in E. injection E as <- <-. discriminate.
Qed.

Lemma dispatch_proof : forall A (levmar de nm nlopt none : A) id,
  DispatchToSolver levmar de nm nlopt none id =
    match id with 1 => levmar | 2 => de | 3 => nm | 5 => nlopt | _ => none end%Z.
Proof.
  intros. unfold DispatchToSolver.
  destruct (Z.eqb_spec id 1) as [->|]; [reflexivity|]. destruct (Z.eqb_spec id 2) as [->|]; [reflexivity|].
  destruct (Z.eqb_spec id 3) as [->|]; [reflexivity|]. destruct (Z.eqb_spec id 5) as [->|]; [reflexivity|].
  destruct id as [|[[[p|p|]|[p|p|]|]|[[p|p|]|[p|p|]|]|]|p]; try reflexivity; lia.
Qed.

(** a library that keeps its starting point unless it gets no bounds at all *)
Definition lib1 : Library R := fun s start =>
  match lower s, upper s with
  | [None], [None] => Done 1 [(-1)%R] 0%R
  | _, _ => Done 1 start 0%R
  end.
Lemma lib1_ok : respects_bounds NumR lib1.
Proof.
  intros s start L1 L2 B. unfold lib1.
  destruct (lower s) as [|[l|] [|l' lt]] eqn:El; destruct (upper s) as [|[u|] [|u' ut]] eqn:Eu;
    try (constructor; [assumption|exact B]).
  constructor; [reflexivity|]. intros [|[|i]] v E; cbn in *; try discriminate; split; exact I.
Qed.
Lemma one_sided_proof : exists lib start ls,
  respects_bounds NumR lib /\ List.length start = 1%nat /\ List.length ls = 1%nat /\
  acceptable NumR start ls start /\
  exists o c', fit_with NumR LN_NELDERMEAD 3 lib (fun _ => 0%R) (fun _ => false) 1 start ls 0%R true 0 = Ok (o, c') /\
    ~ acceptable NumR start ls (oc_params o).
Proof.
  exists lib1, [1%R], [mkLimits false true false 0%R 0%R].
  split; [exact lib1_ok|]. split; [reflexivity|]. split; [reflexivity|]. split.
  - split; [reflexivity|]. intros [|[|i]] v l s Hv Hl Hs; cbn in *; try discriminate.
    injection Hv as <-. injection Hl as <-. cbn. split; auto. apply Rleb_true. lra.
  - do 2 eexists. split; [reflexivity|]. cbn [oc_params]. intros (_ & A).
    specialize (A 0%nat (-1)%R (mkLimits false true false 0%R 0%R) 1%R eq_refl eq_refl eq_refl).
    cbn in A. destruct A as (A & _). apply Rleb_true in A. lra.
Qed.
