(** C73-C75: what imfit and imfit-mcmc hand to the solver, and the numbers and images that
    imfit leaves behind. *)
From Coq Require Import ZArith List Bool Ascii String DecimalString Reals Lia Lra.
From Verif Require Import Base Num Fit_Model Fit_Spec Fit_Proof StrUtil_Model StrUtil_Spec StrUtil_Proof Config_Model Config_Spec Build_Model Params_Spec Build_Spec Build_Proof
  Save_Model Save_Spec Save_Proof Save_Final Props_Save Opt_Model Start_Model Finish_Model Finish_Spec Finish_Hand Finish_Proof Finish_Out Finish_Total.
From Verif Require Dream_Model Props_Dream.
Import ListNotations.
Local Open Scope string_scope.
Local Open Scope list_scope.

(** ---- C73: what the solver and the sampler get ---- *)

(** imfit ends with status -1 when the number of parameters read is not that of the model
    or the object refuses the data; otherwise the solver gets the values and the limits
    of the file, those of centres relative to the fitted section, and the number of free
    parameters. *)
Theorem C73_imfit : forall (T : Type) (N : Num T) (s : setup T) obj (IS : Type) (create : IS -> list T -> res (IS * list T)) psf bs b po
    (offX offY : Z) st obj',
  Situation N s obj create psf bs b po -> prepare N s = Ok (st, obj') ->
  let run := begin_imfit N b (offX, offY) po obj in
  let n := List.length (roles bs) in
  (List.length (o_params po) <> n \/ (st < 0)%Z -> run = Ok (inl (-1)%Z)) /\
  (List.length (o_params po) = n /\ (0 <= st)%Z ->
     exists h, run = Ok (inr (h, obj')) /\ Handed N offX offY bs (o_params po) (o_limits po) h).
Proof.
  intros T N s obj IS create psf bs b po offX offY st obj' [W HO SZ HB HA HL] EP run n. unfold run, n.
  destruct (begin_imfit_ok offX offY HB HA HO HL EP) as (A & B & C). split; [|intros (H1 & H2); exact (C H1 H2)].
  intros H. destruct (Nat.eq_dec (List.length (o_params po)) (List.length (roles bs))) as [E|E]; [|exact (A E)].
  destruct H as [H|H]; [contradiction|exact (B E H)].
Qed.
Print Assumptions C73_imfit.

(** The same for imfit-mcmc, which moreover ends with status -2 when a free parameter has
    no lower or no upper limit. A fixed parameter is locked at its value; there are as many
    chains as asked for, by default as many as free parameters. *)
Theorem C73_mcmc : forall (T : Type) (N : Num T) (s : setup T) obj (IS : Type) (create : IS -> list T -> res (IS * list T)) psf bs b po
    (offX offY : Z) st obj' nChains,
  Situation N s obj create psf bs b po -> prepare N s = Ok (st, obj') ->
  let run := begin_mcmc N b (offX, offY) po obj nChains in
  let n := List.length (roles bs) in
  let all_limited := Forall (fun p => p_fixed p = true \/ Bounded p) (o_limits po) in
  (List.length (o_params po) <> n \/ (st < 0)%Z -> run = Ok (inl (-1)%Z)) /\
  (List.length (o_params po) = n /\ (0 <= st)%Z -> ~ all_limited -> run = Ok (inl (-2)%Z)) /\
  (List.length (o_params po) = n /\ (0 <= st)%Z -> all_limited ->
     exists d, run = Ok (inr (d, obj')) /\
       Sampled N offX offY bs (o_params po) (o_limits po) (if (nChains <=? 0)%Z then None else Some nChains) d).
Proof.
  intros T N s obj IS create psf bs b po offX offY st obj' nChains [W HO SZ HB HA HL] EP run n al. unfold run, n, al.
  destruct (begin_mcmc_ok offX offY HB HA HO HL nChains EP) as (A & B & C & D).
  split; [|split; [intros (H1 & H2); exact (C H1 H2)|intros (H1 & H2); exact (D H1 H2)]].
  intros H. destruct (Nat.eq_dec (List.length (o_params po)) (List.length (roles bs))) as [E|E]; [|exact (A E)].
  destruct H as [H|H]; [contradiction|exact (B E H)].
Qed.
Print Assumptions C73_mcmc.

(** Refuted: that the default number of chains is enough. With one free parameter there is
    one chain, and the sampler, which needs two others for a proposal, aborts. *)
Theorem C73_one_chain_refuted : forall (T : Type) (N : Num T) (s : setup T) obj (IS : Type) (create : IS -> list T -> res (IS * list T)) psf bs b po
    (offX offY : Z) st obj',
  Situation N s obj create psf bs b po -> prepare N s = Ok (st, obj') -> (0 <= st)%Z ->
  List.length (o_params po) = List.length (roles bs) ->
  Forall (fun p => p_fixed p = true \/ Bounded p) (o_limits po) ->
  List.length (filter (fun p => negb (p_fixed p)) (o_limits po)) = 1%nat ->
  exists d, begin_mcmc N b (offX, offY) po obj (-1) = Ok (inr (d, obj')) /\ d_chains d = 1%Z /\
    forall (G : Type) (rg : Dream_Model.rng T G) fuel g, Dream_Model.pick_pair rg fuel (Z.to_nat (d_chains d)) 0 g = Abort.
Proof.
  intros T N s obj IS create psf bs b po offX offY st obj' S0 EP Hs HL HF H1.
  destruct (C73_mcmc T N s obj IS create psf bs b po offX offY st obj' (-1) S0 EP) as (_ & _ & C).
  destruct (C (conj HL Hs) HF) as (d & E & SD). exists d. split; [exact E|].
  assert (Ec : d_chains d = 1%Z).
  { rewrite (sd_chains _ _ _ _ _ _ _ _ _ SD). cbn [Z.leb]. change (-1 <=? 0)%Z with true. cbv iota.
    rewrite (hd_free _ _ _ _ _ _ _ _ (sd_hand _ _ _ _ _ _ _ _ _ SD)), H1. reflexivity. }
  split; [exact Ec|]. intros G rg fuel g. rewrite Ec. apply Props_Dream.C48_one_chain_refuted.
Qed.
Print Assumptions C73_one_chain_refuted.

(** ---- C74: the parameter file and the numbers in it ---- *)
Section Runs.
  Variable m : Libm.
  Notation N := (NumF m).
  Variable s : setup F64.
  Variable IS : Type.
  Variable create : IS -> list F64 -> res (IS * list F64).
  Variables f4 g g5 f6 : F64 -> str.
  Variable dec : nat -> str.
  Variable summary : Z -> Z -> str.
  Variable qsort : list F64 -> list F64.
  Variable clock : Z.
  Variable draws : Z -> nat -> F64.
  Variable fuel : nat.
  Variable obj : mobj F64.
  Variables offX offY : Z.
  Variable psf : option (Z * Z).
  Variable bs : list (sblock F64).
  Variable b : built.
  Variable po : pout F64.
  Variable header : list str.
  Variable img0 : IS.
  Variable solver : handover F64 -> session F64 (fitted F64).
  Variables lm nm : handover F64 -> list F64 -> session F64 (Z * list F64).
  Definition finish (op : opts F64) :=
    finish_imfit N create f4 g g5 f6 dec summary qsort clock draws fuel op header b (offX, offY) po obj img0 solver lm nm.

  (** the exit status is 0 or -1; it is -1, and nothing is written, exactly when the fit
      could not begin *)
  Theorem C74_exit : forall op z out, Situation N s obj create psf bs b po -> finish op = Ok (z, out) ->
    (z = 0 \/ z = -1)%Z /\
    (z = (-1)%Z <-> List.length (o_params po) <> List.length (roles bs) \/ exists st o, prepare N s = Ok (st, o) /\ (st < 0)%Z) /\
    (z = (-1)%Z -> out = []).
  Proof.
    intros op z out [W HO SZ HB HA HL] E. destruct (finish_start W HO HB HA HL E) as [(A & B & C)|(A & X)].
    - split; [now right|]. split; [split; auto|]. auto.
    - destruct X as (st & o & h & so & out0 & r & w & l & w1 & out1 & EP & Hs & P & En & _).
      split; [now left|]. split; [split; [intros ->; discriminate|]|intros ->; discriminate].
      intros [H|(st' & o' & E1 & E2)]; [contradiction|]. rewrite EP in E1. injection E1 as <- _. lia.
  Qed.

  (** The parameter file says: the outcome of the solver; the name of the statistic; the
      statistic of the saved parameters for the data, its reduced value, AIC and BIC; then
      the parameters and their errors. The solver had its questions answered with the
      statistic or the deviates of the data. An interrupted run writes only this file,
      under another name; otherwise the images asked for follow, all of the model image of
      the saved parameters. (Without --bootstrap; see below.) *)
  Theorem C74_numbers_partial : forall op q z out, Situation N s obj create psf bs b po ->
    op K_printFitStatisticOnly = VB false -> op K_doBootstrap = VB false -> Requested op q -> op K_solver = VZ z ->
    finish op = Ok (0%Z, out) ->
    exists h r img img' vec v txt,
      Handed N offX offY bs (o_params po) (o_limits po) h /\
      Answered N create s img0 (solver h) r img /\
      create img (r_params r) = Ok (img', vec) /\ StatisticOf N s None vec v /\
      SaveParameters N f4 g g5 header (report_lines N f6 (summary z (r_status r)) s (h_free h) v) b
        (nofZ N offX) (nofZ N offY) (r_params r) (r_errors r) = Ok txt /\
      out = if r_stopped r then [OParameters interruptedParameterFileName txt]
            else OParameters (q_params q) txt :: image_files N s q vec.
  Proof.
    intros op q z out [W HO SZ HB HA HL] F0 FB FQ FZ E.
    destruct (finish_fit W SZ HO HB HA HL F0 FQ FZ E) as (h & r & img & _ & HH & AN & img1 & img2 & rs & vec & v & txt & l & C1 & C2 & C3 & C4 & CB & C5).
    destruct (C5 (or_introl FB)) as (-> & -> & ->). exists h, r, img, img2, vec, v, txt.
    split; [exact HH|]. split; [exact AN|]. split; [exact C1|]. split; [exact C2|]. split; [exact C3|].
    rewrite C4. cbn [app]. destruct (r_stopped r); reflexivity.
  Qed.

  (** --fitstat-only: the statistic of the starting values, its reduced value, AIC and BIC are
      printed, no parameter file is written, and the images are those of the starting values *)
  Theorem C74_stat_only : forall op q out, Situation N s obj create psf bs b po ->
    op K_printFitStatisticOnly = VB true -> op K_doBootstrap = VB false -> Requested op q ->
    finish op = Ok (0%Z, out) ->
    exists h img vec v, Handed N offX offY bs (o_params po) (o_limits po) h /\
      create img0 (h_start h) = Ok (img, vec) /\ StatisticOf N s None vec v /\
      out = OStatistic v (reduced N s v (h_free h)) (corrected_AIC N v (nofZ N (h_free h)) (nofZ N (n_usable N s)))
              (BIC_of N v (nofZ N (h_free h)) (nofZ N (n_usable N s))) :: image_files N s q vec.
  Proof.
    intros op q out [W HO SZ HB HA HL] F0 FB (_ & _ & FQ) E.
    destruct (finish_stat W SZ HO HB HA HL F0 FQ FB E) as (h & img & vec & v & _ & H1 & H2 & H3 & H4). exists h, img, vec, v. auto.
  Qed.

  (** A run in which images can be computed and the solver ends with printable values writes
      the file, and the configuration readers of imfit and of makeimage read from it the
      functions, labels, optional parameters, blocks and, to printing accuracy, the values
      the solver ended with, centres in coordinates of the whole image. *)
  Theorem C74_file : forall op q z ni (toR : F64 -> R) (finite : F64 -> Prop) (strtod : str -> F64) (IsNumeric : str -> bool) st o,
    Situation N s obj create psf bs b po -> GoodModel bs -> List.length (o_params po) = List.length (roles bs) ->
    prepare N s = Ok (st, o) -> (0 <= st)%Z ->
    (forall i p, exists r, create i p = Ok r) ->
    PrintfOK toR finite f4 g g5 -> AcceptsDecimals IsNumeric -> (forall v, OneLine (f6 v)) -> (forall i j, OneLine (summary i j)) ->
    Forall Comment header ->
    op K_printFitStatisticOnly = VB false -> op K_doBootstrap = VB false -> op K_bootstrapIterations = VZ ni ->
    Requested op q -> op K_solver = VZ z ->
    (forall h, Handed N offX offY bs (o_params po) (o_limits po) h ->
       EndsIn (fun r => exists bs', ResultOf finite (nadd N) (nofZ N offX) (nofZ N offY) bs r bs') (solver h)) ->
    exists h r img bs' txt rest, Handed N offX offY bs (o_params po) (o_limits po) h /\
      Answered N create s img0 (solver h) r img /\ ResultOf finite (nadd N) (nofZ N offX) (nofZ N offY) bs r bs' /\
      finish op = Ok (0%Z, OParameters (if r_stopped r then interruptedParameterFileName else q_params q) txt :: rest) /\
      (exists out, ReadConfigFile_full N strtod IsNumeric (file_lines txt) true [] = Ok (0%Z, Some (out, [])) /\
         ReadBack toR (nadd N) (nofZ N 0) strtod (nofZ N offX) (nofZ N offY) bs' out) /\
      (forall opt0, exists out, ReadConfigFile_limited N strtod IsNumeric (file_lines txt) true opt0 = Ok (0%Z, Some (out, [])) /\
         ReadBack toR (nadd N) (nofZ N 0) strtod (nofZ N offX) (nofZ N offY) bs' out).
  Proof.
    intros op q z ni toR finite strtod IsNumeric st o [W HO SZ HB HA HL] HG HN EP Hs CT PF AD F6 SU HH F0 FB FI FQ FZ GE.
    destruct (@finish_total m s W IS create SZ CT f4 g g5 f6 dec summary qsort clock draws fuel obj HO offX offY psf bs b po HG HA HL HN st o EP Hs header HH img0
                solver lm nm toR finite strtod IsNumeric PF AD F6 SU op q z ni F0 FQ FZ FB FI GE)
      as (r & img & bs' & h & txt & rest & A1 & A2 & A3 & A4 & A5 & A6).
    exists h, r, img, bs', txt, rest. auto 10.
  Qed.

  (** ---- C75: the images, also with --bootstrap ---- *)
  (** Whatever the bootstrap does in between, the images saved after a fit are the model,
      residual and weight images of the saved parameters. *)
  Theorem C75_images : forall op q z out, Situation N s obj create psf bs b po ->
    op K_printFitStatisticOnly = VB false -> Requested op q -> op K_solver = VZ z ->
    finish op = Ok (0%Z, out) ->
    exists h r img img1 img2 vec name txt l,
      Handed N offX offY bs (o_params po) (o_limits po) h /\ Answered N create s img0 (solver h) r img /\
      create img1 (r_params r) = Ok (img2, vec) /\
      BootstrapOnly l /\ out = l ++ OParameters name txt :: (if r_stopped r then [] else image_files N s q vec).
  Proof.
    intros op q z out [W HO SZ HB HA HL] F0 FQ FZ E.
    destruct (finish_fit W SZ HO HB HA HL F0 FQ FZ E) as (h & r & img & _ & HH & AN & img1 & img2 & rs & vec & v & txt & l & C1 & C2 & C3 & C4 & CB & C5).
    exists h, r, img, img1, img2, vec, (if r_stopped r then interruptedParameterFileName else q_params q), txt, l.
    split; [exact HH|]. split; [exact AN|]. split; [exact C1|]. split; [exact CB|exact C4].
  Qed.
End Runs.
Print Assumptions C74_exit.
Print Assumptions C74_numbers_partial.
Print Assumptions C74_stat_only.
Print Assumptions C74_file.
Print Assumptions C75_images.

(** ---- what does not hold, and cases that meet the hypotheses ---- *)
(** A 2 x 1 image with data 1, 3 and errors 1; the model is a constant sky, its centre is
    fixed. *)
Definition fm := Props_Dream.demo_libm.
Notation FN := (NumF fm).
Definition one : F64 := f_ofZ 1.
Definition w_s : setup F64 :=
  mkSetup 2 1 [one; f_ofZ 3] None one (f_ofZ 0) one 1 (f_ofZ 0) None (ChiUserErrors [one; one] 100).
Definition w_bs : list (sblock F64) := [mkSblock one one [mkSfunc (lit "FlatSky") [] [] [one]]].
Definition w_b : built := ltac:(let r := eval vm_compute in
  (AddFunctions None (map s_name (sall w_bs)) (map s_label (sall w_bs)) (sstarts w_bs) (map s_opts (sall w_bs))) in
  match r with Ok (_, Some ?m) => exact m end).
Definition w_po : pout F64 :=
  mkOut [lit "FlatSky"] [[]] [one; one; one]
    [mkPar true false false one one; mkPar true false false one one; mkPar false true true (f_ofZ 0) (f_ofZ 9)] [O] true [[]].
Definition w_create (_ : unit) (p : list F64) : res (unit * list F64) := Ok (tt, repeat (nth 2 p (f_ofZ 0)) 2).
Definition w_obj : mobj F64 := match SetupModelObject FN w_s with Ok o => o | _ => new_object FN end.
(** small whole numbers in decimal notation *)
Definition show (v : F64) : str :=
  match find (fun n => f_eqb v (f_ofZ (Z.of_nat n))) (seq 0 200) with
  | Some n => lit (NilEmpty.string_of_uint (Nat.to_uint n)) | None => lit "1" end.
Definition w_op (l : list (key * val F64)) : opts F64 := puts (imfit_defaults F64 (fun _ => one) 1) l.

Lemma w_situation : Situation FN w_s w_obj w_create None w_bs w_b w_po.
Proof.
  constructor.
  - split; [reflexivity|]. split; [exact I|]. split; [split; [reflexivity|auto]|].
    split; [vm_compute; reflexivity|]. split; [vm_compute; reflexivity|]. split; [vm_compute; reflexivity|]. split; [cbn; lia|vm_compute; reflexivity].
  - unfold w_obj. assert (E : match SetupModelObject FN w_s with Ok _ => true | _ => false end = true) by (vm_compute; reflexivity).
    destruct (SetupModelObject FN w_s); [reflexivity|discriminate|discriminate|discriminate].
  - intros st p st' vec E. injection E as _ <-. reflexivity.
  - split; [discriminate|]. split; [repeat constructor; discriminate|].
    constructor; [|constructor]. destruct (find_class classes (lit "FlatSky")) as [c|] eqn:E; [|vm_compute in E; discriminate].
    exists c. pose proof (find_class_sound E) as (A & B). split; [exact A|]. split; [exact B|].
    vm_compute in E. injection E as <-. reflexivity.
  - vm_compute. reflexivity.
  - reflexivity.
Qed.

(** a solver that finds nothing better than the starting values; a refit likewise *)
Definition w_stay (h : handover F64) : session F64 (fitted F64) := Finished (mkFitted 1 (h_start h) None false).
Definition w_lm (_ : handover F64) (p : list F64) : session F64 (Z * list F64) := Finished (1%Z, p).
(** a refit that tries one other value *)
Definition w_lm7 (_ : handover F64) (p : list F64) : session F64 (Z * list F64) :=
  AskStatistic [one; one; f_ofZ 7] (fun _ => Finished (1%Z, p)).
Definition w_run lm op := finish fm unit w_create show show show show (fun _ => lit "0") (fun _ _ => lit "ok") (fun l => l) 0
  (fun _ _ => f_ofZ 0) 5 w_obj 0 0 w_b w_po [] tt w_stay lm lm op.
Definition says (l : str) (out : list (output F64)) : bool :=
  existsb (fun o => match o with OParameters _ t => existsb (fun x => str_eqb x l) (file_lines t) | _ => false end) out.

(** images: their pixels are whole numbers here *)
Definition image_of (name : str) (out : list (output F64)) : option (list str) :=
  match find (fun o => match o with OImage n _ _ _ => str_eqb n name | _ => false end) out with
  | Some (OImage _ _ _ l) => Some (map show l) | _ => None end.
Definition w_out lm op : list (output F64) := match w_run lm op with Ok (_, l) => l | _ => [] end.
Lemma w_ok lm op : match w_run lm op with Ok (z, _) => (z =? 0)%Z | _ => false end = true -> w_run lm op = Ok (0%Z, w_out lm op).
Proof. unfold w_out. destruct (w_run lm op) as [[z l]| | |]; intros H; try discriminate. apply Z.eqb_eq in H. now subst. Qed.

(** the statistic of the data for the sky 1 is (1-1)^2 + (3-1)^2 = 4 *)
Lemma w_statistic : exists v, StatisticOf FN w_s None [one; one] v /\ f_eqb v (f_ofZ 4) = true.
Proof.
  assert (E : match prepare FN w_s with Ok (_, o) => match GetFitStatistic FN o [one; one] with Ok (_, v) => f_eqb v (f_ofZ 4) | _ => false end | _ => false end = true)
    by (vm_compute; reflexivity).
  destruct (prepare FN w_s) as [[st o]| | |] eqn:E1; try discriminate.
  destruct (GetFitStatistic FN o [one; one]) as [[o' v]| | |] eqn:E2; try discriminate.
  exists v. split; [|exact E]. exists st, o, o'. split; [exact E1|exact E2].
Qed.

Lemma first_file a b (out : list (output F64)) :
  match out with
  | OParameters n t :: r => existsb (fun x => str_eqb x a) (file_lines t) && negb (existsb (fun x => str_eqb x b) (file_lines t))
  | _ => false end = true ->
  exists n t r, out = OParameters n t :: r /\ In a (file_lines t) /\ ~ In b (file_lines t).
Proof.
  destruct out as [|[| n t | |] r]; try discriminate. intros C. apply andb_true_iff in C. destruct C as (C1 & C2).
  exists n, t, r. split; [reflexivity|]. split.
  - apply existsb_exists in C1. destruct C1 as (x & Hx & Ex). apply str_eqb_true in Ex. now subst.
  - intros Hx. apply negb_true_iff in C2. rewrite <- not_true_iff_false in C2. apply C2. apply existsb_exists. eexists. split; [exact Hx|]. apply str_eqb_refl.
Qed.

(** C74 without the condition on --bootstrap is refuted: the statistic in the file is that of
    the last resample. The resample of this run is the first pixel twice, and the file
    says 0 instead of 4. *)
Theorem C74_bootstrap_refuted : exists op q out vec v txt name rest,
  Situation FN w_s w_obj w_create None w_bs w_b w_po /\
  op K_printFitStatisticOnly = VB false /\ op K_doBootstrap = VB true /\ Requested op q /\
  w_run w_lm op = Ok (0%Z, out) /\ out = OParameters name txt :: rest /\
  w_create tt [one; one; one] = Ok (tt, vec) /\ StatisticOf FN w_s None vec v /\ f_eqb v (f_ofZ 4) = true /\
  In (lit "#   Best-fit value: 0") (file_lines txt) /\ ~ In (lit "#   Best-fit value: 4") (file_lines txt).
Proof.
  set (op := w_op [(K_doBootstrap, VB true); (K_bootstrapIterations, VZ 1)]).
  destruct w_statistic as (v & S1 & S2).
  exists op, (mkRequest (lit "bestfit_parameters_imfit.dat") None None None), (w_out w_lm op), [one; one], v.
  destruct (first_file (lit "#   Best-fit value: 0") (lit "#   Best-fit value: 4") (w_out w_lm op)) as (n & t & r & E & C1 & C2); [vm_compute; reflexivity|].
  exists t, n, r. split; [exact w_situation|]. split; [reflexivity|]. split; [reflexivity|].
  split. { split; [reflexivity|]. split; [reflexivity|]. split; [|split]; exists false, []; repeat split; reflexivity. }
  split; [apply w_ok; vm_compute; reflexivity|].
  split; [exact E|]. split; [reflexivity|]. split; [exact S1|]. split; [exact S2|]. split; [exact C1|exact C2].
Qed.
Print Assumptions C74_bootstrap_refuted.

(** The same run without --bootstrap meets the hypotheses of C74; the file says 4. *)
Example C74_case : exists op q out,
  Situation FN w_s w_obj w_create None w_bs w_b w_po /\
  op K_printFitStatisticOnly = VB false /\ op K_doBootstrap = VB false /\ Requested op q /\ op K_solver = VZ 1 /\
  w_run w_lm op = Ok (0%Z, out) /\ says (lit "#   Best-fit value: 4") out = true /\
  image_of (lit "m.fits") out = Some [lit "1"; lit "1"] /\ image_of (lit "r.fits") out = Some [lit "0"; lit "2"] /\
  image_of (lit "w.fits") out = Some [lit "1"; lit "1"].
Proof.
  set (op := w_op [(K_saveModel, VB true); (K_outputModelFileName, VS (lit "m.fits")); (K_saveResidualImage, VB true);
                   (K_outputResidualFileName, VS (lit "r.fits")); (K_saveWeightImage, VB true); (K_outputWeightFileName, VS (lit "w.fits"))]).
  exists op, (mkRequest (lit "bestfit_parameters_imfit.dat") (Some (lit "m.fits")) (Some (lit "r.fits")) (Some (lit "w.fits"))), (w_out w_lm op).
  split; [exact w_situation|]. split; [reflexivity|]. split; [reflexivity|].
  split. { split; [reflexivity|]. split; [reflexivity|]. split; [|split]; exists true; eexists; repeat split; reflexivity. }
  split; [reflexivity|]. split; [apply w_ok; vm_compute; reflexivity|].
  split; [|split; [|split]]; vm_compute; reflexivity.
Qed.

(** C75 with --fitstat-only and --bootstrap is refuted: the image saved is that of the last
    trial of the last refit (sky 7), not that of the starting values (sky 1). *)
Theorem C75_stat_only_refuted : exists op out,
  Situation FN w_s w_obj w_create None w_bs w_b w_po /\
  op K_printFitStatisticOnly = VB true /\ op K_doBootstrap = VB true /\ op K_saveModel = VB true /\ op K_outputModelFileName = VS (lit "m.fits") /\
  w_run w_lm7 op = Ok (0%Z, out) /\
  (exists h, Handed FN 0 0 w_bs (o_params w_po) (o_limits w_po) h /\ w_create tt (h_start h) = Ok (tt, [nth 2 (h_start h) one; nth 2 (h_start h) one]) /\
     f_eqb (nth 2 (h_start h) one) one = true) /\
  image_of (lit "m.fits") out = Some [lit "7"; lit "7"].
Proof.
  set (op := w_op [(K_printFitStatisticOnly, VB true); (K_saveModel, VB true); (K_outputModelFileName, VS (lit "m.fits"));
                   (K_doBootstrap, VB true); (K_bootstrapIterations, VZ 1)]).
  exists op, (w_out w_lm7 op). split; [exact w_situation|]. split; [reflexivity|]. split; [reflexivity|]. split; [reflexivity|]. split; [reflexivity|].
  split; [apply w_ok; vm_compute; reflexivity|]. split; [|vm_compute; reflexivity].
  assert (E : exists st o, prepare FN w_s = Ok (st, o) /\ (0 <= st)%Z).
  { assert (E : match prepare FN w_s with Ok (st, _) => (0 <=? st)%Z | _ => false end = true) by (vm_compute; reflexivity).
    destruct (prepare FN w_s) as [[st o]| | |]; try discriminate. exists st, o. split; [reflexivity|]. now apply Z.leb_le. }
  destruct E as (st & o & EP & Hs).
  destruct (C73_imfit F64 FN w_s w_obj unit w_create None w_bs w_b w_po 0 0 st o w_situation EP) as (_ & B).
  destruct (B (conj eq_refl Hs)) as (h & _ & HH). exists h. split; [exact HH|].
  rewrite (hd_start _ _ _ _ _ _ _ _ HH). split; [reflexivity|vm_compute; reflexivity].
Qed.
Print Assumptions C75_stat_only_refuted.

(** the hypotheses of C74_file: [show] writes whole numbers as they are *)
Lemma show_text v : In (show v) (map (fun n => lit (NilEmpty.string_of_uint (Nat.to_uint n))) (seq 0 200)).
Proof.
  unfold show. destruct (find _ (seq 0 200)) as [n|] eqn:E; [|right; left; reflexivity].
  apply find_some in E. destruct E as (E & _). apply in_map_iff. exists n. auto.
Qed.
Lemma show_all (Q : str -> bool) : forallb Q (map (fun n => lit (NilEmpty.string_of_uint (Nat.to_uint n))) (seq 0 200)) = true -> forall v, Q (show v) = true.
Proof. intros H v. rewrite forallb_forall in H. apply H. apply show_text. Qed.
Lemma digit1 : Decimal (lit "1") 1%R.
Proof.
  assert (D : Digits (lit "1") 1) by (apply Dig_one; split; [lia|reflexivity]).
  exists [], false, (lit "1"), 1%Z, [], [], [], 0%Z, 1%Z.
  split; [reflexivity|]. split; [constructor|]. split; [exact D|]. split; [constructor|]. split; [constructor|]. split; [exact D|].
  cbn. lra.
Qed.
Definition harmless_b (s : str) : bool :=
  forallb (fun c => let n := nat_of_ascii c in negb (n =? 0)%nat && negb (n =? 10)%nat && (n <? 65)%nat) s && (List.length s <=? 400)%nat.
Lemma harmless_true s : harmless_b s = true -> Forall Harmless s /\ List.length s <= 400.
Proof.
  unfold harmless_b. rewrite andb_true_iff, forallb_forall, Nat.leb_le. intros (A & B). split; [|exact B].
  apply Forall_forall. intros c Hc. specialize (A c Hc). cbv zeta in A. rewrite !andb_true_iff, !negb_true_iff, !Nat.eqb_neq, Nat.ltb_lt in A.
  unfold Harmless. cbv zeta. lia.
Qed.
Definition w_toR (v : F64) : R := if str_eqb (show v) (lit "1") then 1%R else 0%R.
Definition w_finite (v : F64) : Prop := show v = lit "1".
Lemma w_printf : PrintfOK w_toR w_finite show show show.
Proof.
  assert (V : forall v, w_finite v -> exists r, Decimal (show v) r /\ (r - w_toR v = 0)%R).
  { intros v H. exists 1%R. unfold w_toR. rewrite H. split; [exact digit1|]. replace (str_eqb (lit "1") (lit "1")) with true by reflexivity. lra. }
  assert (X : forall v, Forall Harmless (show v) /\ List.length (show v) <= 400).
  { intros v. apply harmless_true. apply show_all. vm_compute. reflexivity. }
  constructor.
  - intros v H. destruct (V v H) as (r & D & E). exists r. split; [exact D|]. rewrite E, Rabs_R0. lra.
  - intros v H. destruct (V v H) as (r & D & E). exists r. split; [exact D|]. rewrite E, Rabs_R0. pose proof (Rabs_pos (w_toR v)). lra.
  - exact X.
  - intros v. apply X.
  - exact X.
Qed.

Example C74_file_case : exists (op : opts F64) q st o,
  Situation FN w_s w_obj w_create None w_bs w_b w_po /\ GoodModel w_bs /\ List.length (o_params w_po) = List.length (roles w_bs) /\
  prepare FN w_s = Ok (st, o) /\ (0 <= st)%Z /\ (forall i p, exists r, w_create i p = Ok r) /\
  PrintfOK w_toR w_finite show show show /\ AcceptsDecimals numericb /\ (forall v, OneLine (show v)) /\
  op K_printFitStatisticOnly = VB false /\ op K_doBootstrap = VB false /\ op K_bootstrapIterations = VZ 0 /\ Requested op q /\ op K_solver = VZ 1 /\
  (forall h, Handed FN 0 0 w_bs (o_params w_po) (o_limits w_po) h ->
     EndsIn (fun r => exists bs', ResultOf w_finite (nadd FN) (nofZ FN 0) (nofZ FN 0) w_bs r bs') (w_stay h)).
Proof.
  assert (E : exists st o, prepare FN w_s = Ok (st, o) /\ (0 <= st)%Z).
  { assert (E : match prepare FN w_s with Ok (st, _) => (0 <=? st)%Z | _ => false end = true) by (vm_compute; reflexivity).
    destruct (prepare FN w_s) as [[st o]| | |]; try discriminate. exists st, o. split; [reflexivity|]. now apply Z.leb_le. }
  destruct E as (st & o & EP & Hs).
  exists (w_op []), (mkRequest (lit "bestfit_parameters_imfit.dat") None None None), st, o.
  split; [exact w_situation|]. split.
  { destruct (si_model _ _ _ _ _ _ _ _ w_situation) as (A & B & C). split; [exact A|]. split; [exact B|].
    apply Forall_cons_iff in C. destruct C as (C & _). constructor; [|constructor]. split; [exact C|].
    split; [left; reflexivity|]. split; constructor. }
  split; [reflexivity|]. split; [exact EP|]. split; [exact Hs|]. split; [intros i p; eexists; reflexivity|]. split; [exact w_printf|].
  split; [exact (proj1 (proj2 C67_hyp_example))|].
  split; [intros v; apply Harmless_oneline; apply (@f4_text _ _ _ _ _ _ w_printf)|].
  split; [reflexivity|]. split; [reflexivity|]. split; [reflexivity|].
  split. { split; [reflexivity|]. split; [reflexivity|]. split; [|split]; exists false, []; repeat split; reflexivity. }
  split; [reflexivity|].
  intros h HH. cbn [EndsIn w_stay].
  exists [mkSblock (nsub FN one (nofZ FN 0)) (nsub FN one (nofZ FN 0)) [mkSfunc (lit "FlatSky") [] [] [one]]].
  split. { constructor; [|constructor]. constructor; [|constructor]. repeat split; reflexivity. }
  split; [rewrite (hd_start _ _ _ _ _ _ _ _ HH); reflexivity|]. split; [|exact I].
  unfold AllFinite, w_finite. repeat (apply Forall_cons; [vm_compute; reflexivity|]). constructor.
Qed.

(** ---- C73, concretely ---- *)
(** imfit-mcmc, section starting at pixel (101, 1): what is sampled, and what the header of
    the chain files says *)
Definition c_po : pout F64 :=
  mkOut [lit "FlatSky"] [[]] [f_ofZ 150; one; one]
    [mkPar false true true (f_ofZ 140) (f_ofZ 160); mkPar true false false one one; mkPar false true true (f_ofZ 0) (f_ofZ 9)] [O] true [[]].
Lemma c_situation : Situation FN w_s w_obj w_create None w_bs w_b c_po.
Proof. destruct w_situation as [A B C D E F]. constructor; auto. Qed.

Lemma line_in (r : res (Z * list str)) x :
  match r with Ok (z, l) => (z =? 0)%Z && existsb (fun y => str_eqb y x) l | _ => false end = true -> exists l, r = Ok (0%Z, l) /\ In x l.
Proof.
  destruct r as [[z l]| | |]; try discriminate. intros K. apply andb_true_iff in K. destruct K as (K1 & K2). apply Z.eqb_eq in K1. subst z.
  exists l. split; [reflexivity|]. apply existsb_exists in K2. destruct K2 as (y & Hy & Ey). apply str_eqb_true in Ey. now subst y.
Qed.
(** Refuted: that the limits shown in the header of the chain files belong to the values
    beside them (mcmc_main.cpp:422). The centre is 150, between 140 and 160; the header says
    150, between 40 and 60. *)
Theorem C73_header_refuted : exists d st obj' l,
  Situation FN w_s w_obj w_create None w_bs w_b c_po /\
  map show (o_params c_po) = [lit "150"; lit "1"; lit "1"] /\
  map (fun p => (show (p_lo p), show (p_hi p))) (firstn 1 (o_limits c_po)) = [(lit "140", lit "160")] /\
  prepare FN w_s = Ok (st, obj') /\
  begin_mcmc FN w_b (100, 0)%Z c_po w_obj (-1) = Ok (inr (d, obj')) /\
  PrintModelParamsToStrings FN show show show w_b (nofZ FN 100) (nofZ FN 0) (h_start (d_hand d)) None (lit "#") true (h_info (d_hand d)) [] = Ok (0%Z, l) /\
  In (lit "#X0" ++ TAB ++ TAB ++ lit "150" ++ TAB ++ TAB ++ lit "40,60" ++ NL) l.
Proof.
  assert (E : match prepare FN w_s with Ok (st, _) => (0 <=? st)%Z | _ => false end = true) by (vm_compute; reflexivity).
  destruct (prepare FN w_s) as [[st obj']| | |] eqn:EP; try discriminate. apply Z.leb_le in E.
  destruct (C73_mcmc F64 FN w_s w_obj unit w_create None w_bs w_b c_po 100 0 st obj' (-1) c_situation EP) as (_ & _ & C).
  destruct (C (conj eq_refl E)) as (d & Ed & SD).
  { repeat (constructor; [first [left; reflexivity|right; split; reflexivity]|]). constructor. }
  set (P := fun d : sampling F64 => PrintModelParamsToStrings FN show show show w_b (nofZ FN 100) (nofZ FN 0) (h_start (d_hand d)) None (lit "#") true (h_info (d_hand d)) []).
  set (x := lit "#X0" ++ TAB ++ TAB ++ lit "150" ++ TAB ++ TAB ++ lit "40,60" ++ NL).
  assert (K : match begin_mcmc FN w_b (100, 0)%Z c_po w_obj (-1) with
              | Ok (inr (d, _)) => match P d with Ok (z, l) => (z =? 0)%Z && existsb (fun y => str_eqb y x) l | _ => false end | _ => false end = true)
    by (vm_compute; reflexivity).
  rewrite Ed in K. destruct (line_in _ _ K) as (l & El & Hl). unfold P in El.
  exists d, st, obj', l. split; [exact c_situation|]. split; [vm_compute; reflexivity|]. split; [vm_compute; reflexivity|].
  split; [reflexivity|]. split; [exact Ed|]. split; [exact El|exact Hl].
Qed.
Print Assumptions C73_header_refuted.

(** one free parameter: the hypotheses of C73_one_chain_refuted *)
Example C73_case : exists st o, Situation FN w_s w_obj w_create None w_bs w_b w_po /\ prepare FN w_s = Ok (st, o) /\ (0 <= st)%Z /\
  List.length (o_params w_po) = List.length (roles w_bs) /\ Forall (fun p => p_fixed p = true \/ Bounded p) (o_limits w_po) /\
  List.length (filter (fun p => negb (p_fixed p)) (o_limits w_po)) = 1%nat.
Proof.
  assert (E : match prepare FN w_s with Ok (st, _) => (0 <=? st)%Z | _ => false end = true) by (vm_compute; reflexivity).
  destruct (prepare FN w_s) as [[st o]| | |] eqn:EP; try discriminate. apply Z.leb_le in E.
  exists st, o. split; [exact w_situation|]. split; [reflexivity|]. split; [exact E|]. split; [reflexivity|]. split; [|reflexivity].
  repeat (constructor; [first [left; reflexivity|right; split; reflexivity]|]). constructor.
Qed.
