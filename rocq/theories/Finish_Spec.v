(** What imfit and imfit-mcmc hand to the solver and what imfit writes, stated without
    reference to the program text. Of the models only records and [prepare],
    [GetFitStatistic], [ComputeDeviates] (the statistic of a model image, the subject of
    C28-C31) and the layout of the parameter file (C67) are used. *)
From Coq Require Import ZArith List Bool Ascii String.
From Verif Require Import Base Num Fit_Model Fit_Spec Config_Model Build_Model Save_Spec Opt_Model Finish_Model.
Import ListNotations.
Local Open Scope string_scope.
Local Open Scope list_scope.

(** ---- what is handed over ---- *)
(** the parameters of a model, in order: each block starts with its centre *)
Inductive role := CentreX | CentreY | Other.
Definition roles {T} (bs : list (sblock T)) : list role :=
  flat_map (fun b => CentreX :: CentreY :: repeat Other (List.length (flat_map s_vals (s_funcs b)))) bs.

Section Hand.
  Variable T : Type.
  Variable N : Num T.
  (** position of the fitted section: its first pixel is pixel (offX + 1, offY + 1) of the file *)
  Variables offX offY : Z.

  (** coordinates of the file -> coordinates of the fitted section *)
  Definition relative (r : role) (v : T) : T :=
    match r with
    | CentreX => nsub N v (nofZ N offX)
    | CentreY => nsub N v (nofZ N offY)
    | Other => v
    end.
  (** [values], [limits]: as read from the configuration file *)
  Record Handed (bs : list (sblock T)) (values : list T) (limits : list (mp_par T)) (h : handover T) : Prop := mkHanded {
    hd_start : h_start h = map (fun rv => relative (fst rv) (snd rv)) (combine (roles bs) values);
    hd_length : List.length (h_info h) = List.length limits;
    hd_info : forall i r p, nth_error (roles bs) i = Some r -> nth_error limits i = Some p ->
      nth_error (h_info h) i =
        Some (mkPar (p_fixed p) (p_lim0 p) (p_lim1 p) (relative r (p_lo p)) (relative r (p_hi p)));
    hd_free : h_free h = Z.of_nat (List.length (filter (fun p => negb (p_fixed p)) limits)) }.

  (** the parameter has both limits *)
  Definition Bounded (p : mp_par T) : Prop := p_lim0 p = true /\ p_lim1 p = true.
  (** what the sampler gets: a fixed parameter is locked at its value, a free one ranges
      between its limits; [nChains] is the number asked for, if any *)
  Record Sampled (bs : list (sblock T)) (values : list T) (limits : list (mp_par T)) (nChains : option Z) (d : sampling T) : Prop := mkSampled {
    sd_hand : Handed bs values limits (d_hand d);
    sd_lock : d_lock d = map (@p_fixed T) limits;
    sd_lengths : List.length (d_low d) = List.length limits /\ List.length (d_high d) = List.length limits;
    sd_range : forall i r p v, nth_error (roles bs) i = Some r -> nth_error limits i = Some p -> nth_error values i = Some v ->
      nth_error (d_low d) i = Some (relative r (if p_fixed p then v else p_lo p)) /\
      nth_error (d_high d) i = Some (relative r (if p_fixed p then v else p_hi p));
    sd_names : d_names d = param_names bs;
    sd_chains : d_chains d = match nChains with Some n => n | None => h_free (d_hand d) end }.
End Hand.
Arguments relative {T}. Arguments Handed {T}. Arguments Sampled {T}. Arguments Bounded {T}.

Section Out.
  Variable T : Type.
  Variable N : Num T.
  Notation "0" := (nofZ N 0).
  Notation "1" := (nofZ N 1).
  Notation "2" := (nofZ N 2).
  Infix "+" := (nadd N). Infix "*" := (nmul N). Infix "/" := (ndiv N). Infix "-" := (nsub N).
  Variable IS : Type.
  Variable create : IS -> list T -> res (IS * list T).

  (** images have the size that belongs to the data *)
  Definition Sizes (s : setup T) : Prop :=
    forall st p st' vec, create st p = Ok (st', vec) -> List.length vec = model_size s.

  (** the fit statistic, and the deviates, of the model image [vec] for the inputs [s], as a
      freshly prepared object computes them; over all pixels, or over a resample *)
  Definition StatisticOf (s : setup T) (resample : option (list nat)) (vec : list T) (v : T) : Prop :=
    exists st o o', prepare N s = Ok (st, o) /\ GetFitStatistic N (resampled o resample) vec = Ok (o', v).
  Definition DeviatesOf (s : setup T) (resample : option (list nat)) (vec y : list T) : Prop :=
    exists st o o', prepare N s = Ok (st, o) /\
      ComputeDeviates N (resampled o resample) vec (repeat 0 (List.length (pixels s resample))) 0 = Ok (o', y).

  (** A session in which every question was answered with the statistic or the deviates of
      the data at the parameters asked for. [Answered st q a st']: it began with the image
      state [st] and ended with the answer [a] and the image state [st']. *)
  Inductive Answered {A : Type} (s : setup T) : IS -> session T A -> A -> IS -> Prop :=
  | An_end : forall st a, Answered s st (Finished a) a st
  | An_stat : forall st p k vec v st1 a st2,
      create st p = Ok (st1, vec) -> StatisticOf s None vec v -> Answered s st1 (k v) a st2 ->
      Answered s st (AskStatistic p k) a st2
  | An_dev : forall st p k vec y st1 a st2,
      create st p = Ok (st1, vec) -> DeviatesOf s None vec y -> Answered s st1 (k y) a st2 ->
      Answered s st (AskDeviates p k) a st2.

  (** ---- the numbers ---- *)
  Definition corrected_AIC (v k n : T) : T := v + 2 * k + 2 * k * (k + 1) / (n - k - 1).
  Definition BIC_of (v k n : T) : T := v + k * nlog N n.
  (** the statistic divided by the degrees of freedom; none for Cash's *)
  Definition reduced (s : setup T) (v : T) (nFree : Z) : option T :=
    match s_stat s with
    | Cash => None
    | _ => Some (v / nofZ N (n_usable N s - nFree))
    end.
  Definition title (s : setup T) : string :=
    match s_stat s with
    | Cash => "Cash statistic"
    | PMLR => "Poisson-MLR statistic"
    | ChiUserErrors _ _ => "chi-squared (user-supplied errors)"
    | ChiModelErrors => "chi-squared (model-based errors)"
    | ChiDataErrors => "chi-squared (data-based errors)"
    end.
  (** the report at the head of the parameter file; [f6]: decimal notation *)
  Definition report_lines (f6 : T -> list ascii) (algorithm : list ascii) (s : setup T) (nFree : Z) (v : T) : list (list ascii) :=
    let txt (t : string) := list_ascii_of_string t in
    [ algorithm;
      txt "Fit statistic: " ++ txt (title s);
      txt "Best-fit value: " ++ f6 v;
      txt "Reduced value: " ++ match reduced s v nFree with Some r => f6 r | None => txt "none" end;
      txt "AIC: " ++ f6 (corrected_AIC v (nofZ N nFree) (nofZ N (n_usable N s)));
      txt "BIC: " ++ f6 (BIC_of v (nofZ N nFree) (nofZ N (n_usable N s))) ].

  (** ---- the images ---- *)
  Definition model_image (s : setup T) (vec : list T) : list T := map (model_at N s vec) (seq O (npix s)).
  (** (data values that are not finite count as 0) *)
  Definition residual_image (s : setup T) (vec : list T) : list T :=
    map (fun z => clean_data N s z - model_at N s vec z) (seq O (npix s)).
  (** 1/sigma^2; 0 for the pixels that are not used *)
  Definition sigma_weight (s : setup T) (vec : list T) (z : nat) : T :=
    match s_stat s with
    | ChiModelErrors => 1 / nsqrt N (noise_sq N s (model_at N s vec z + s_sky s))
    | _ => given_weight N s z
    end.
  Definition weight_image (s : setup T) (vec : list T) : list T :=
    map (fun z => if usable N s z then sigma_weight s vec z * sigma_weight s vec z else 0) (seq O (npix s)).

  (** which files were asked for *)
  Record request := mkRequest { q_params : list ascii; q_model : option (list ascii); q_residual : option (list ascii); q_weight : option (list ascii) }.
  Definition asked (o : opts T) (flag name : key) (q : option (list ascii)) : Prop :=
    exists b n, o flag = VB b /\ o name = VS n /\ q = if b then Some n else None.
  Definition Requested (o : opts T) (q : request) : Prop :=
    o K_saveBestFitParams = VB true /\ o K_outputParameterFileName = VS (q_params q) /\
    asked o K_saveModel K_outputModelFileName (q_model q) /\
    asked o K_saveResidualImage K_outputResidualFileName (q_residual q) /\
    asked o K_saveWeightImage K_outputWeightFileName (q_weight q).
  Definition image_file (s : setup T) (name : option (list ascii)) (pix : list T) : list (output T) :=
    match name with None => [] | Some n => [OImage n (s_cols s) (s_rows s) pix] end.
  Definition image_files (s : setup T) (q : request) (vec : list T) : list (output T) :=
    image_file s (q_model q) (model_image s vec) ++
    image_file s (q_residual q) (residual_image s vec) ++
    image_file s (q_weight q) (weight_image s vec).
End Out.
Arguments Sizes {T IS}. Arguments StatisticOf {T}. Arguments DeviatesOf {T}. Arguments Answered {T} N {IS} create {A}.
Arguments corrected_AIC {T}. Arguments BIC_of {T}. Arguments reduced {T}. Arguments title {T}. Arguments report_lines {T}.
Arguments model_image {T}. Arguments residual_image {T}. Arguments sigma_weight {T}. Arguments weight_image {T}.
Arguments asked {T}. Arguments Requested {T}. Arguments image_file {T}. Arguments image_files {T}.

(** every way a session can end meets [Q] *)
Fixpoint EndsIn {T A : Type} (Q : A -> Prop) (q : session T A) : Prop :=
  match q with
  | Finished a => Q a
  | AskStatistic _ k => forall v, EndsIn Q (k v)
  | AskDeviates _ k => forall y, EndsIn Q (k y)
  end.
(** the same functions, in the same blocks, with other values *)
Definition SameShape {T} (bs bs' : list (sblock T)) : Prop :=
  Forall2 (fun b b' => Forall2 (fun f f' => s_name f' = s_name f /\ s_label f' = s_label f /\ s_opts f' = s_opts f /\
                                            List.length (s_vals f') = List.length (s_vals f)) (s_funcs b) (s_funcs b')) bs bs'.

(** ---- the situation after the first half of the programs (C66, C71) ---- *)
(** [bs]: the model, of known functions with the right numbers of parameters; [b]: what the
    program built from it; [po]: what it read from the configuration file; [s]: data, mask,
    errors, ...; [obj]: the object made from them; [create]: computes model images *)
Record Situation {T IS : Type} (N : Num T) (s : setup T) (obj : mobj T) (create : IS -> list T -> res (IS * list T))
    (psf : option (Z * Z)) (bs : list (sblock T)) (b : built) (po : pout T) : Prop := mkSituation {
  si_wf : well_formed N s;
  si_obj : SetupModelObject N s = Ok obj;
  si_size : Sizes create s;
  si_model : bs <> [] /\ Forall (fun b => s_funcs b <> []) bs /\ Forall (@Sized T) (sall bs);
  si_built : AddFunctions psf (map s_name (sall bs)) (map s_label (sall bs)) (sstarts bs) (map s_opts (sall bs)) = Ok (0%Z, Some b);
  si_limits : List.length (o_limits po) = List.length (o_params po) }.
(** nothing, or the bootstrap file *)
Definition BootstrapOnly {T} (l : list (output T)) : Prop :=
  l = [] \/ exists name head rows, l = [OBootstrap name head rows].
(** the fit ended with values for the same model that can be printed *)
Definition ResultOf {T} (finite : T -> Prop) (add : T -> T -> T) (offX offY : T) (bs : list (sblock T)) (r : fitted T) (bs' : list (sblock T)) : Prop :=
  SameShape bs bs' /\ sflat bs' = r_params r /\ AllFinite finite add offX offY bs' /\ ErrorsFor (r_errors r) bs'.
