(** mpfit() and LevMarFit() as a whole: memory safety in any arithmetic, and the meaning of
    the trial points, of the gradient test and of the errors in exact arithmetic. *)
From Coq Require Import ZArith List Bool Lia Reals Lra Permutation.
From Verif Require Import Base Num Sums Stats_Model Stats_Spec Stats_Proof DE_Model LM_Model LM_Spec LM_StepSpec DE_Proof LM_Proof LM_QR LM_QRReal LM_RealProof LM_Solve LM_SolveReal LM_Lmpar LM_LmparReal LM_Total LM_Safe LM_Cov LM_CovReal LM_StepMath LM_StepLimits LM_StepReal LM_StepErr.
Import ListNotations.
Set Implicit Arguments. Unset Strict Implicit.

(** ---- totality ---- *)
Section T.
Variable T : Type.
Variable N : Num T.

Lemma free_indices_total (pars : option (list (limits T))) n : (forall ps, pars = Some ps -> n <= length ps) -> exists fr, free_indices pars n = Ok fr.
Proof.
  intros H. destruct (@for_total (list nat) (fun _ => True) n (fun i fr => match pars with None => Ok (fr ++ [i]) | Some ps => do p <- get ps i; Ok (if fixed p then fr else fr ++ [i]) end) []) as (fr & E & _); [exact I| |exists fr; exact E].
  intros i s Hi _. destruct pars as [ps|]; [|eexists; split; [reflexivity|exact I]]. specialize (H ps eq_refl).
  destruct (@get_lt _ ps i ltac:(lia)) as (p & Ep). rewrite Ep. eexists; split; [reflexivity|exact I].
Qed.
Lemma check_limits_total n (ps : list (limits T)) xall : n <= length ps -> n <= length xall -> exists e, check_limits N n ps xall = Ok e.
Proof.
  intros H1 H2. unfold check_limits. match goal with |- exists e, for_ n ?f None = Ok e => destruct (@for_total (option Z) (fun _ => True) n f None) as (e1 & E1 & _) end; [exact I| |exists e1; exact E1].
  intros i [z|] Hi _; [eexists; split; [reflexivity|exact I]|]. destruct (@get_lt _ ps i ltac:(lia)) as (p & Ep). destruct (@get_lt _ xall i ltac:(lia)) as (x & Ex). rewrite Ep, Ex. cbn [bind].
  destruct (_ && _ && _ && _); [eexists; split; [reflexivity|exact I]|]. destruct (_ || _); eexists; (split; [reflexivity|exact I]).
Qed.
Lemma free_limits_total ifree (ps : list (limits T)) : (forall p, In p ifree -> p < length ps) -> exists q, free_limits ifree ps = Ok q.
Proof.
  intros H. unfold free_limits. match goal with |- exists e, for_ ?k ?f ?s = Ok e => destruct (@for_total (list (limits T)) (fun _ => True) k f s) as (e1 & E1 & _) end; [exact I| |exists e1; exact E1].
  intros i s Hi _. destruct (@get_lt _ ifree i Hi) as (p & Ep). rewrite Ep. cbn [bind]. apply get_some in Ep. apply nth_error_In in Ep. destruct (@get_lt _ ps p (H p Ep)) as (l & El). rewrite El. eexists; split; [reflexivity|exact I].
Qed.
Lemma gather_total ifree (xall : list T) : (forall p, In p ifree -> p < length xall) -> exists x, for_ (length ifree) (fun i x => do p <- get ifree i; do v <- get xall p; Ok (x ++ [v])) [] = Ok x.
Proof.
  intros H. match goal with |- exists e, for_ ?k ?f ?s = Ok e => destruct (@for_total (list T) (fun _ => True) k f s) as (e1 & E1 & _) end; [exact I| |exists e1; exact E1].
  intros i s Hi _. destruct (@get_lt _ ifree i Hi) as (p & Ep). rewrite Ep. cbn [bind]. apply get_some in Ep. apply nth_error_In in Ep. destruct (@get_lt _ xall p (H p Ep)) as (l & El). rewrite El. eexists; split; [reflexivity|exact I].
Qed.
Lemma count_pegged_total n pars (x : list T) : (forall ps, pars = Some ps -> n <= length ps) -> n <= length x -> exists k, count_pegged N n pars x = Ok k.
Proof.
  intros H Hx. destruct pars as [ps|]; [|eexists; reflexivity]. specialize (H ps eq_refl). unfold count_pegged.
  match goal with |- exists e, for_ ?k ?f ?s = Ok e => destruct (@for_total Z (fun _ => True) k f s) as (e1 & E1 & _) end; [exact I| |exists e1; exact E1].
  intros i s Hi _. destruct (@get_lt _ ps i ltac:(lia)) as (p & Ep). destruct (@get_lt _ x i ltac:(lia)) as (y & Ey). rewrite Ep, Ey. eexists; split; [reflexivity|exact I].
Qed.
Lemma x_errors_total m npar n ifree (c : matrix T) : n <= m -> shape m n c -> length ifree = n -> (forall p, In p ifree -> p < npar) -> exists xe, x_errors N npar n ifree c = Ok xe.
Proof.
  intros NM Sh Li Bi. unfold x_errors. match goal with |- exists e, for_ ?k ?f ?s = Ok e => destruct (@for_total (list T) (fun xe => length xe = npar) k f s) as (e1 & E1 & _) end; [unfold zeros; apply repeat_length| |exists e1; exact E1].
  intros i s Hi L. rewrite (@get2_ok T N m n c i i Sh ltac:(lia) Hi). cbn [bind]. destruct (@get_lt _ ifree i ltac:(lia)) as (p & Ep). rewrite Ep. cbn [bind]. apply get_some in Ep. apply nth_error_In in Ep. specialize (Bi p Ep).
  destruct (nltb N (nofZ N 0) (LM_Solve.en N c i i)); [|eexists; split; [reflexivity|exact L]]. destruct (@set_vn T N s p (nsqrt N (LM_Solve.en N c i i)) ltac:(lia)) as (s' & Es & Ls & _). rewrite Es. eexists; split; [reflexivity|lia].
Qed.

(** everything that happens before the loops, and after them *)
Record setup (enorm : list T -> T) (funct : nat -> list T -> list T) (m npar : Z) (xall : list T) (pars : option (list (limits T))) (config : mp_config T)
    (ifree : list nat) (lims : option (list (limits T))) (x0 : list T) : Prop := mkSetup {
  su_free : free_indices pars (Z.to_nat npar) = Ok ifree;
  su_n : 0 < length ifree <= Z.to_nat m;
  su_nd : NoDup ifree;
  su_in : forall j, In j ifree <-> j < length xall /\ is_free pars j;
  su_fit : lims_fit (length ifree) lims;
  su_lims : forall j p, nth_error ifree j = Some p -> match pars with Some ps => nth_error ps p | None => None end = match lims with Some q => nth_error q j | None => None end;
  su_order : forall q i l, lims = Some q -> nth_error q i = Some l -> lim_order N l;
  su_good : good_x N (length ifree) lims x0;
  su_x0 : forall u, spread (length ifree) ifree x0 xall = Ok u -> u = xall;
  su_conf : nleb N (ftol (merge_config N config)) (nofZ N 0) = false /\ nleb N (xtol (merge_config N config)) (nofZ N 0) = false /\
            nleb N (gtol (merge_config N config)) (nofZ N 0) = false /\ nleb N (stepfactor (merge_config N config)) (nofZ N 0) = false }.

Definition start_state (enorm : list T -> T) (funct : nat -> list T -> list T) (npar : Z) (xall : list T) (nfree : nat) (x0 : list T) : lm_state T :=
  mkLM x0 (funct 0 xall) (enorm (funct 0 xall)) (nofZ N (-1)) (nofZ N 0) (nofZ N 0) (nofZ N (-1)) 1%Z (zeros N (Z.to_nat npar)) [] [] (zeros N nfree) (nofZ N 0) [(Start, xall, funct 0 xall)].

Lemma mpfit_setup enorm funct interrupted m npar xall pars config :
  length xall = Z.to_nat npar -> (forall k v, length (funct k v) = Z.to_nat m) -> (forall ps, pars = Some ps -> Z.to_nat npar <= length ps) ->
  (exists e, (forall fuel, mpfit N enorm funct interrupted fuel m npar xall pars config = Ok (e, xall, None, [])) /\ (e < 0)%Z) \/
  exists ifree lims x0, setup enorm funct m npar xall pars config ifree lims x0 /\ forall fuel,
    let conf := merge_config N config in let n := length ifree in
    match run N enorm funct interrupted (Z.to_nat m) n ifree lims conf xall fuel false (start_state enorm funct npar xall n x0) with
    | Fuel => mpfit N enorm funct interrupted fuel m npar xall pars config = Fuel
    | Ok (s, true, i) => mpfit N enorm funct interrupted fuel m npar xall pars config = Ok (i, xall, None, s_log s)
    | Ok (s, false, i) => exists v peg c xe, spread n ifree (s_x s) xall = Ok v /\ covar N n (s_fjac s) (s_ipvt s) (covtol conf) = Ok c /\ shape (Z.to_nat m) n c /\
         x_errors N (Z.to_nat npar) n ifree c = Ok xe /\
         let cs := if (0 <? nprint conf)%Z && (0 <? i)%Z then snd (evaluate funct Final v (s_log s)) else s_log s in
         let b := dmax1 N (s_fnorm s) (s_fnorm1 s) in
         mpfit N enorm funct interrupted fuel m npar xall pars config =
           Ok (i, v, Some (mkRes (nmul N b b) (nmul N (enorm (funct 0 xall)) (enorm (funct 0 xall))) (s_iter s) (Z.of_nat (length cs)) (Z.of_nat n) peg xe), cs)
    | _ => False
    end.
Proof.
  intros Lx Hf Lp. unfold mpfit. cbv zeta. set (conf := merge_config N config).
  destruct (m <=? 0)%Z eqn:Em; [left; eexists; split; [intros fuel; reflexivity|reflexivity]|].
  destruct (npar <=? 0)%Z; [left; eexists; split; [intros fuel; reflexivity|reflexivity]|].
  destruct (free_indices_total (n := Z.to_nat npar) Lp) as (ifree & Efr). rewrite Efr. cbn [bind].
  destruct (free_indices_ok Efr) as (ND & Hin & _). rewrite <- Lx in Hin.
  destruct (length ifree =? 0) eqn:En; [left; eexists; split; [intros fuel; reflexivity|reflexivity]|]. apply Nat.eqb_neq in En.
  assert (Herr : exists err, match pars with None => Ok None | Some ps => check_limits N (Z.to_nat npar) ps xall end = Ok err).
  { destruct pars as [ps|]; [|eexists; reflexivity]. apply check_limits_total; [apply Lp; reflexivity|lia]. }
  destruct Herr as (err & Eerr). rewrite Eerr. cbn [bind]. destruct err as [e|].
  { left. exists e. split; [intros fuel; reflexivity|]. destruct pars as [ps|]; [|discriminate]. apply check_limits_ok in Eerr. destruct Eerr as (j & p & x & _ & _ & _ & [(-> & _)|(-> & _)]); reflexivity. }
  assert (Hchk : forall ps, pars = Some ps -> forall j p x, nth_error ps j = Some p -> nth_error xall j = Some x ->
      ~ empty_interval (nleb N) p /\ ~ starts_outside (nltb N) p x).
  { intros ps Hps j p x Hp Hx. rewrite Hps in Eerr. apply check_limits_ok in Eerr. eapply Eerr; eauto. rewrite <- Lx. apply nth_error_Some. congruence. }
  assert (Hlims : exists lims, match pars with None => Ok None | Some ps => do q <- free_limits ifree ps; Ok (Some q) end = Ok lims /\
     match pars with None => lims = None | Some ps => exists q, lims = Some q /\ free_limits ifree ps = Ok q end).
  { destruct pars as [ps|]; [|eexists; split; reflexivity]. destruct (@free_limits_total ifree ps) as (q & Eq). { intros p Hp. apply Hin in Hp. specialize (Lp ps eq_refl). lia. }
    rewrite Eq. exists (Some q). split; [reflexivity|]. exists q. auto. }
  destruct Hlims as (lims & El & Hlims). rewrite El. cbn [bind]. clear El.
  match goal with |- context [if ?b || ?c || ?d || ?e || ?g then _ else _] => destruct (b || c || d || e || g) eqn:Ec end; [left; eexists; split; [intros fuel; reflexivity|reflexivity]|].
  apply orb_false_iff in Ec. destruct Ec as (Ec & Ec5). apply orb_false_iff in Ec. destruct Ec as (Ec & _). apply orb_false_iff in Ec. destruct Ec as (Ec & Ec3). apply orb_false_iff in Ec. destruct Ec as (Ec1 & Ec2).
  destruct (Nat.ltb_spec (Z.to_nat m) (length ifree)) as [Dof|Dof]; [left; eexists; split; [intros fuel; reflexivity|reflexivity]|].
  unfold evaluate. cbn [length]. cbv beta iota.
  assert (Bin : forall p, In p ifree -> p < length xall) by (intros p Hp; apply Hin in Hp; apply Hp).
  destruct (gather_total Bin) as (x0 & Ex0). rewrite Ex0. cbn [bind].
  pose proof Ex0 as Ex0'. apply (@for_append _ (fun i => do p <- get ifree i; get xall p)) in Ex0'.
  2:{ intros i acc _. destruct (get ifree i); cbn [bind]; reflexivity. }
  destruct Ex0' as (Lx0 & Hx0).
  assert (Hx0' : forall i p, nth_error ifree i = Some p -> nth_error x0 i = nth_error xall p).
  { intros i p Hp. assert (i < length ifree) by (apply nth_error_Some; congruence). destruct (Hx0 i H) as (y & Ey & Hy).
    apply bind_Ok in Ey. destruct Ey as (p' & Ep' & Ey). apply get_some in Ep', Ey. congruence. }
  assert (Hl : forall q i l, lims = Some q -> nth_error q i = Some l -> exists ps p, pars = Some ps /\ nth_error ifree i = Some p /\
       nth_error ps p = Some l /\ fixed l = false).
  { intros q i l Hq Hi. destruct pars as [ps|]; [|congruence]. destruct Hlims as (q' & Hq' & Hfl). rewrite Hq in Hq'. injection Hq' as <-.
    destruct (free_limits_ok Hfl) as (Lq & Hf').
    assert (i < length ifree) by (rewrite <- Lq; apply nth_error_Some; congruence).
    destruct (nth_error ifree i) as [p|] eqn:Ep; [|apply nth_error_None in Ep; lia].
    destruct (Hf' i p Ep) as (A & _). exists ps, p. split; [reflexivity|]. split; [reflexivity|]. rewrite <- A. split; [assumption|].
    assert (In p ifree) by (eapply nth_error_In; eassumption). apply Hin in H0. destruct H0 as (_ & l' & Hl' & Fl'). congruence. }
  right. exists ifree, lims, x0.
  assert (SU : setup enorm funct m npar xall pars config ifree lims x0).
  { constructor; auto.
    - lia.
    - destruct pars as [ps|]; [|now rewrite Hlims]. destruct Hlims as (q & -> & Hfl). destruct (free_limits_ok Hfl) as (Lq & _). unfold lims_fit. lia.
    - intros j p Hp. destruct pars as [ps|]; [|now rewrite Hlims]. destruct Hlims as (q & -> & Hfl). destruct (free_limits_ok Hfl) as (_ & Hf'). symmetry. apply (Hf' j p Hp).
    - intros q i l Hq Hi. destruct (Hl q i l Hq Hi) as (ps & p & Hps & Hp & Hpl & Fl).
      assert (p < length xall) by (apply Bin; eapply nth_error_In; eassumption).
      destruct (nth_error xall p) as [x|] eqn:Ex; [|apply nth_error_None in Ex; lia].
      intros A B. destruct (nleb N (lim1 l) (lim0 l)) eqn:C; [|reflexivity].
      exfalso. apply (proj1 (Hchk ps Hps p l x Hpl Ex)). repeat split; assumption.
    - split; [exact Lx0|]. intros q i l y Hq Hi Hy. destruct (Hl q i l Hq Hi) as (ps & p & Hps & Hp & Hpl & Fl).
      rewrite (Hx0' i p Hp) in Hy. destruct (Hchk ps Hps p l y Hpl Hy) as (_ & B). split; intros A.
      + destruct (nltb N y (lim0 l)) eqn:C; [|reflexivity]. exfalso. apply B. left; auto.
      + destruct (nltb N (lim1 l) y) eqn:C; [|reflexivity]. exfalso. apply B. right; auto.
    - intros u Su. destruct (spread_ok ND Su) as (Lu & S1 & S2). apply CmdLine_Proof.list_ext. intros j.
      destruct (in_dec Nat.eq_dec j ifree) as [Hj|Hj].
      + apply In_nth_error in Hj. destruct Hj as (i & Hi). assert (Hi' : i < length ifree) by (apply nth_error_Some; congruence).
        destruct (S1 i j Hi' Hi) as (Sx & _). rewrite Sx. now apply Hx0'.
      + apply S2. intros i _ Hi. apply Hj. eapply nth_error_In; eassumption. }
  split; [exact SU|]. intros fuel. fold (start_state enorm funct npar xall (length ifree) x0). set (s0 := start_state enorm funct npar xall (length ifree) x0).
  assert (Bi : forall j, j < length ifree -> nth j ifree 0 < length xall) by (intros j Hj; apply Bin; apply nth_In; exact Hj).
  assert (Sa0 : sane (Z.to_nat m) (length ifree) xall s0). { split; [exact Lx0|]. split; [apply Hf|]. cbn. unfold zeros. rewrite repeat_length. lia. }
  pose proof (@run_total T N enorm funct interrupted (Z.to_nat m) (length ifree) Dof Hf ifree lims conf xall eq_refl ND Bi (su_fit SU) fuel false s0 Sa0 ltac:(discriminate)) as R.
  destruct R as [R|(s & c & i & R & (Sx & Sf & _) & (Shf & Pf & _))]; rewrite R; [reflexivity|]. cbn [bind]. destruct c; [reflexivity|].
  destruct (@spread_total T N (Z.to_nat m) (length ifree) Dof ifree (s_x s) xall eq_refl ltac:(lia) Bi) as (v & Ev & Lv). rewrite Ev. cbn [bind].
  destruct (@count_pegged_total (Z.to_nat npar) pars v Lp ltac:(lia)) as (peg & Epeg). rewrite Epeg. cbn [bind].
  destruct (@covar_total T N (Z.to_nat m) (length ifree) Dof (s_fjac s) (s_ipvt s) (covtol conf) ltac:(lia) Shf Pf) as (r1 & l1 & r2 & c & _ & _ & _ & _ & _ & Ecov & Shc & _). rewrite Ecov. cbn [bind].
  destruct (@x_errors_total (Z.to_nat m) (Z.to_nat npar) (length ifree) ifree c Dof Shc eq_refl) as (xe & Exe). { intros p Hp. specialize (Bin p Hp). lia. } rewrite Exe. cbn [bind].
  exists v, peg, c, xe. repeat (split; [assumption||reflexivity|]). reflexivity.
Qed.

Lemma mpfit_cases enorm funct interrupted fuel m npar xall pars config :
  length xall = Z.to_nat npar -> (forall k v, length (funct k v) = Z.to_nat m) -> (forall ps, pars = Some ps -> Z.to_nat npar <= length ps) ->
  (exists e, mpfit N enorm funct interrupted fuel m npar xall pars config = Ok (e, xall, None, []) /\ (e < 0)%Z) \/
  exists ifree lims x0, setup enorm funct m npar xall pars config ifree lims x0 /\
    let conf := merge_config N config in let n := length ifree in
    match run N enorm funct interrupted (Z.to_nat m) n ifree lims conf xall fuel false (start_state enorm funct npar xall n x0) with
    | Fuel => mpfit N enorm funct interrupted fuel m npar xall pars config = Fuel
    | Ok (s, true, i) => mpfit N enorm funct interrupted fuel m npar xall pars config = Ok (i, xall, None, s_log s)
    | Ok (s, false, i) => exists v peg c xe, spread n ifree (s_x s) xall = Ok v /\ covar N n (s_fjac s) (s_ipvt s) (covtol conf) = Ok c /\ shape (Z.to_nat m) n c /\
         x_errors N (Z.to_nat npar) n ifree c = Ok xe /\
         let cs := if (0 <? nprint conf)%Z && (0 <? i)%Z then snd (evaluate funct Final v (s_log s)) else s_log s in
         let b := dmax1 N (s_fnorm s) (s_fnorm1 s) in
         mpfit N enorm funct interrupted fuel m npar xall pars config =
           Ok (i, v, Some (mkRes (nmul N b b) (nmul N (enorm (funct 0 xall)) (enorm (funct 0 xall))) (s_iter s) (Z.of_nat (length cs)) (Z.of_nat n) peg xe), cs)
    | _ => False
    end.
Proof.
  intros Lx Hf Lp. destruct (@mpfit_setup enorm funct interrupted m npar xall pars config Lx Hf Lp) as [(e & H & Ne)|(ifree & lims & x0 & SU & H)].
  - left. exists e. split; [apply H|exact Ne].
  - right. exists ifree, lims, x0. split; [exact SU|]. exact (H fuel).
Qed.
End T.

(** ---- exact arithmetic ---- *)
Local Open Scope R_scope.
Section F.
Variable funct : nat -> list R -> list R.
Variable interrupted : nat -> bool.
Variable fuel : nat.
Variable m npar : Z.
Variable xall : list R.
Variable pars : option (list (limits R)).
Variable config : mp_config R.
Hypothesis Lx : length xall = Z.to_nat npar.
Hypothesis Hf : forall k v, length (funct k v) = Z.to_nat m.
Hypothesis Lp : forall ps, pars = Some ps -> (Z.to_nat npar <= length ps)%nat.
Hypothesis Hnp : nprint (merge_config NumR config) = 0%Z.
Notation E := (mp_enorm NumR).
Notation free := (free_parameters pars (Z.to_nat npar)).

Lemma start_inv ifree lims x0 : setup NumR E funct m npar xall pars config ifree lims x0 ->
  InvO (Z.to_nat m) (length ifree) ifree lims pars (merge_config NumR config) xall (start_state NumR E funct npar xall (length ifree) x0).
Proof.
  intros SU. destruct (su_n SU) as (Hn & NM). set (s0 := start_state NumR E funct npar xall (length ifree) x0) in *.
  assert (Bi : forall j, (j < length ifree)%nat -> (nth j ifree 0 < length xall)%nat). { intros j Hj. assert (In (nth j ifree 0%nat) ifree) by (now apply nth_In). apply (su_in SU) in H. apply H. }
  assert (US : exists u, spread (length ifree) ifree x0 xall = Ok u /\ u = xall).
  { destruct (@spread_total R NumR (Z.to_nat m) (length ifree) NM ifree x0 xall eq_refl ltac:(rewrite (proj1 (su_good SU)); lia) Bi) as (u & Eu & _). exists u. split; [exact Eu|exact (su_x0 SU Eu)]. }
  assert (I0 : InvO (Z.to_nat m) (length ifree) ifree lims pars (merge_config NumR config) xall s0).
  { split; [split; [|split; [exact (su_good SU)|split; [reflexivity|split; [apply Rle_refl|split]]]]|split; [intros Q; exfalso; apply Q; reflexivity|]].
    - split; [apply (proj1 (su_good SU))|]. split; [apply Hf|]. cbn. unfold zeros. rewrite repeat_length. lia.
    - intros k u g Hk. cbn in Hk. destruct k as [|[|k]]; discriminate Hk.
    - destruct US as (u & Eu & U0). exists u, 0%nat, Start. split; [exact Eu|]. split; [|left; reflexivity]. rewrite U0. reflexivity.
    - destruct US as (u & Eu & U0). exists u, Start, (@nil (why * list R * list R)). split; [exact Eu|]. split; [|left; reflexivity]. rewrite U0. reflexivity. }
  exact I0.
Qed.

Lemma mpfit_post info v r cs : mpfit NumR E funct interrupted fuel m npar xall pars config = Ok (info, v, r, cs) ->
  (cs = [] /\ r = None /\ (info < 0)%Z /\ forall f, mpfit NumR E funct interrupted f m npar xall pars config = Ok (info, xall, None, [])) \/
  (0 < length free <= Z.to_nat m)%nat /\ exists lims s, L_ s = rev cs /\
    (exists RR c, r = Some RR /\ spread (length free) free (s_x s) xall = Ok v /\ Post (Z.to_nat m) (length free) free lims pars (merge_config NumR config) xall s info /\
       covar NumR (length free) (s_fjac s) (s_ipvt s) (covtol (merge_config NumR config)) = Ok c /\ shape (Z.to_nat m) (length free) c /\
       x_errors NumR (Z.to_nat npar) (length free) free c = Ok (xerror RR)).
Proof.
  intros Em. destruct (@mpfit_setup R NumR E funct interrupted m npar xall pars config Lx Hf Lp) as [(e & E1 & Ne)|(ifree & lims & x0 & SU & H)].
  { left. pose proof (E1 fuel) as E2. rewrite Em in E2. apply Ok_inj in E2. injection E2 as -> -> -> ->. auto. }
  specialize (H fuel).
  right. pose proof (free_indices_list (su_free SU)) as Fr. destruct (su_n SU) as (Hn & NM).
  assert (Li : length ifree = length free) by (now rewrite <- Fr). rewrite <- Fr in *. clear Li. split; [lia|]. cbv zeta in H.
  set (conf := merge_config NumR config) in *. set (s0 := start_state NumR E funct npar xall (length ifree) x0) in *.
  assert (Bi : forall j, (j < length ifree)%nat -> (nth j ifree 0 < length xall)%nat). { intros j Hj. assert (In (nth j ifree 0%nat) ifree) by (now apply nth_In). apply (su_in SU) in H0. apply H0. }
  destruct (su_conf SU) as (C1 & C2 & C3 & C4). fold conf in C1, C2, C3, C4. apply Rleb_false in C2, C3, C4. cbn [nofZ NumR] in C2, C3, C4.
  pose proof (start_inv SU) as I0. fold s0 in I0.
  pose proof (@run_real funct interrupted (Z.to_nat m) (length ifree) NM Hn Hf ifree lims pars conf xall eq_refl (su_nd SU) Bi (su_fit SU) (su_lims SU) (su_order SU) C2 C4 C3 fuel false s0) as RR.
  destruct (run NumR E funct interrupted (Z.to_nat m) (length ifree) ifree lims conf xall fuel false s0) as [[[s c] i]| | |] eqn:Er; [|contradiction|contradiction|rewrite Em in H; discriminate H].
  specialize (RR s c i I0 eq_refl). destruct c; [contradiction|].
  - destruct H as (v' & peg & c & xe & Ev & Ecov & Shc & Exe & H). cbv zeta in H. rewrite Em in H. apply Ok_inj in H. fold conf in Hnp. rewrite Hnp in H. cbn [Z.ltb Z.compare andb] in H. injection H as -> -> -> ->.
    exists lims, s. split; [reflexivity|]. eexists _, c. split; [reflexivity|]. cbn [xerror]. auto.
Qed.

Lemma spread_fun k (l : list nat) (x xa a b : list R) : spread k l x xa = Ok a -> spread k l x xa = Ok b -> a = b.
Proof. congruence. Qed.

Lemma mpfit_steps info v r cs : mpfit NumR E funct interrupted fuel m npar xall pars config = Ok (info, v, r, cs) ->
  forall k u g, nth_error (rev cs) k = Some (Trial, u, g) -> lm_step pars free (Z.to_nat m) (gtol (merge_config NumR config)) (rev cs) k u.
Proof.
  intros Em. destruct (mpfit_post Em) as [(-> & _)|(_ & lims & s & Es & H)]; [intros [|k] u g Q; discriminate Q|]. rewrite <- Es.
  destruct H as (RR & c & _ & _ & (C & _) & _). apply C.
Qed.

Lemma mpfit_trials info v r cs : mpfit NumR E funct interrupted fuel m npar xall pars config = Ok (info, v, r, cs) -> cs <> [] -> maxiter (merge_config NumR config) <> 0%Z ->
  r <> None /\ (info = MP_OK_DIR \/ exists k u g, nth_error (rev cs) k = Some (Trial, u, g)).
Proof.
  intros Em N0 Mx. destruct (mpfit_post Em) as [(Q & _)|(_ & lims & s & Es & RR & c & -> & _ & (_ & _ & _ & _ & P) & _)]; [contradiction|]. split; [discriminate|].
  rewrite Es in P. destruct P as [P|[P|P]]; [left; exact P|contradiction|right; exact P].
Qed.

Lemma mpfit_early info v r : mpfit NumR E funct interrupted fuel m npar xall pars config = Ok (info, v, r, []) ->
  forall f, mpfit NumR E funct interrupted f m npar xall pars config = Ok (info, xall, None, []).
Proof.
  intros Em. destruct (mpfit_post Em) as [(_ & _ & _ & Q)|(_ & lims & s & Es & RR & c & _ & _ & ((_ & _ & _ & _ & _ & xv & b & w & _ & Q & _) & _) & _)]; [exact Q|].
  rewrite Es in Q. destruct b; discriminate Q.
Qed.

Lemma blocked_dec o x y : {blocked o x y} + {~ blocked o x y}.
Proof.
  destruct o as [l|]; [|right; intros (l & H & _); discriminate].
  assert (D : {limited0 l = true /\ x = lim0 l /\ 0 < y} + {~ (limited0 l = true /\ x = lim0 l /\ 0 < y)}).
  { destruct (limited0 l); [|right; intros (H & _); discriminate]. destruct (Req_EM_T x (lim0 l)) as [->|Q]; [|right; intros (_ & H & _); contradiction].
    destruct (Rlt_dec 0 y); [left; auto|right; intros (_ & _ & H); contradiction]. }
  assert (D' : {limited1 l = true /\ x = lim1 l /\ y < 0} + {~ (limited1 l = true /\ x = lim1 l /\ y < 0)}).
  { destruct (limited1 l); [|right; intros (H & _); discriminate]. destruct (Req_EM_T x (lim1 l)) as [->|Q]; [|right; intros (_ & H & _); contradiction].
    destruct (Rlt_dec y 0); [left; auto|right; intros (_ & _ & H); contradiction]. }
  destruct D as [D|D]; [left; exists l; auto|]. destruct D' as [D'|D']; [left; exists l; auto|]. right. intros (l' & H & Q). injection H as <-. tauto.
Qed.

Lemma reasonable_unblocked base f J J' : (0 < Z.to_nat m)%nat -> unblocked pars (Z.to_nat m) free base f J J' -> reasonable (Z.to_nat m) (length free) J -> reasonable (Z.to_nat m) (length free) J'.
Proof.
  intros Hm U Re j Hj. specialize (Re j Hj). destruct (nth_error free j) as [p|] eqn:Hp; [|apply nth_error_None in Hp; lia].
  destruct (U j p Hp) as (U1 & U2). destruct (blocked_dec (limits_of pars p) (nth p base 0) (slope (Z.to_nat m) f J j)) as [B|B].
  - rewrite (@rsum_zero (Z.to_nat m) (fun i => J' i j * J' i j)); [|intros i Hi; rewrite (U1 B i Hi); ring].
    assert (0 < INR (Z.to_nat m)) by (apply lt_0_INR; exact Hm). apply pow_lt. apply Rdiv_lt_0_compat; lra.
  - rewrite (@rsum_ext (Z.to_nat m) (fun i => J' i j * J' i j) (fun i => J i j * J i j)); [exact Re|]. intros i Hi. rewrite (U2 B i Hi). reflexivity.
Qed.

Lemma mpfit_gradient v r cs : mpfit NumR E funct interrupted fuel m npar xall pars config = Ok (MP_OK_DIR, v, r, cs) ->
  exists b f J, around (rev cs) (Z.to_nat m) free b (length cs) v f J /\
    (reasonable (Z.to_nat m) (length free) J -> rsum (Z.to_nat m) (fun i => nth i f 0 * nth i f 0) < (13040000000000000000 / INR (Z.to_nat m)) ^ 2 ->
     stationary pars free (Z.to_nat m) (gtol (merge_config NumR config)) v f J).
Proof.
  intros Em. destruct (mpfit_post Em) as [(_ & _ & H & _)|((Hn & Hm) & lims & s & Es & H)]; [discriminate H|].
  destruct H as (RR & c & _ & Ev & (_ & _ & _ & P & _) & _).
  destruct (P eq_refl) as (xv & b & A & Ap & Ex & Ar & U & H). assert (xv = v) by (eapply spread_fun; eassumption). subst xv.
  rewrite Es, rev_length in Ar. exists b, (s_fvec s), (mat A). split; [exact Ar|]. intros Re Rf j p Hp.
  destruct (U j p Hp) as (U1 & U2). destruct (blocked_dec (limits_of pars p) (nth p v 0) (slope (Z.to_nat m) (s_fvec s) (mat A) j)) as [B|B]; [left; exact B|right].
  assert (Hj : (j < length free)%nat) by (apply nth_error_Some; congruence).
  assert (Re' : reasonable (Z.to_nat m) (length free) (mat Ap)) by (eapply reasonable_unblocked; [lia|exact U|exact Re]).
  assert (Rf' : inner (Z.to_nat m) (s_fvec s) (s_fvec s) < giant (Z.to_nat m) * giant (Z.to_nat m)).
  { unfold giant, inner. replace (_ * _) with ((13040000000000000000 / INR (Z.to_nat m)) ^ 2) by ring. exact Rf. }
  specialize (H Re' Rf' j Hj). unfold slope, norm in *. 
  rewrite (@rsum_ext (Z.to_nat m) (fun i => nth i (s_fvec s) 0 * mat Ap i j) (fun i => nth i (s_fvec s) 0 * mat A i j)) in H by (intros i Hi; now rewrite (U2 B i Hi)).
  rewrite (@rsum_ext (Z.to_nat m) (fun i => mat Ap i j * mat Ap i j) (fun i => mat A i j * mat A i j)) in H by (intros i Hi; now rewrite (U2 B i Hi)).
  exact H.
Qed.

Lemma mpfit_errors info v RR cs : mpfit NumR E funct interrupted fuel m npar xall pars config = Ok (info, v, Some RR, cs) -> 0 <= covtol (merge_config NumR config) ->
  exists b base f J J', around (rev cs) (Z.to_nat m) free b (length cs) base f J /\ unblocked pars (Z.to_nat m) free base f J J' /\
    (v = base \/ exists g cs', cs = (Trial, v, g) :: cs') /\
    (reasonable (Z.to_nat m) (length free) J -> formal_errors free (Z.to_nat m) (covtol (merge_config NumR config)) J' (xerror RR)).
Proof.
  intros Em Ct. destruct (mpfit_post Em) as [(_ & H & _)|((Hn & Hm) & lims & s & Es & H)]; [discriminate H|].
  destruct H as (RR' & c & H & Ev & (_ & _ & (base & f & st & (b & A & Ap & Ar & Lf & Sh & Shp & U & Lin & _) & Hv) & _) & Ec & Shc & Ex). injection H as <-.
  exists b, base, f, (mat A), (mat Ap). split; [rewrite Es, rev_length in Ar; exact Ar|]. split; [exact U|]. split.
  - destruct Hv as [Hv|(xv & w & L0 & Hx & HL & Hw)]; [left; eapply spread_fun; eassumption|]. assert (xv = v) by (eapply spread_fun; eassumption). subst xv.
    destruct Hw as [->| ->]; [|right].
    + exfalso. destruct Ar as (_ & Ja & Hb & Ht). assert (Ll : length (L_ s) = S (length L0)) by (rewrite HL, app_length; cbn; lia).
      destruct (Nat.eq_dec (b + length free) (length L0)) as [Q|Q].
      * destruct (nth_error free (length free - 1)) as [p|] eqn:Hp; [|apply nth_error_None in Hp; lia].
        destruct (Ja _ p Hp) as (h & g & _ & Hc & _). replace (S b + (length free - 1))%nat with (length L0) in Hc by lia. rewrite HL, nth_error_app2, Nat.sub_diag in Hc by lia. discriminate Hc.
      * destruct (Ht (length L0)) as (v1 & g & Hc); [lia|]. rewrite HL, nth_error_app2, Nat.sub_diag in Hc by lia. discriminate Hc.
    + exists (s_fvec s), (rev L0). rewrite <- (rev_involutive cs), <- Es, HL, rev_app_distr. reflexivity.
  - intros Re. assert (Re' : reasonable (Z.to_nat m) (length free) (mat Ap)) by (eapply reasonable_unblocked; [lia|exact U|exact Re]). specialize (Lin Re').
    destruct (@errors_lin (Z.to_nat m) (length free) ltac:(lia) ltac:(lia) Ap f (s_fjac s) (s_ipvt s) (s_qtf s) _ c Lin Ct Ec) as (K1 & K2).
    assert (ND : NoDup free) by (apply NoDup_filter, seq_NoDup).
    assert (Bi : forall j, (j < length free)%nat -> (nth j free 0 < Z.to_nat npar)%nat). { intros j Hj. assert (H : In (nth j free 0%nat) free) by (now apply nth_In). apply filter_In in H. destruct H as (H & _). apply in_seq in H. lia. }
    destruct (@x_errors_real (Z.to_nat npar) (length free) free c (xerror RR) eq_refl ND Bi ltac:(exists (Z.to_nat m); split; [lia|exact Shc]) Ex) as (X1 & X2).
    exists (fun j => Rltb 0 (en c j j)), (en c). split; [exact X1|]. split; [|split; [exact K1|exact K2]].
    intros j p Hp. rewrite (X2 j p Hp). destruct (Rltb 0 (en c j j)) eqn:Q; [|reflexivity]. apply Rltb_true in Q. auto.
Qed.
End F.
