(** Proofs for C74 and C75, continued: the report and the images. *)
From Coq Require Import ZArith List Bool Ascii String Lia.
From Flocq Require Import Core.Core IEEE754.BinarySingleNaN.
From Verif Require Import Base Num Fit_Model Fit_Spec Fit_Proof Fit_FloatProof StrUtil_Model Config_Model Build_Model Params_Spec Build_Spec Save_Model Save_Spec
  Opt_Model Start_Model Finish_Model Finish_Spec Finish_Hand Finish_Proof.
Import ListNotations.
Local Open Scope list_scope.
Set Implicit Arguments.
Unset Strict Implicit.
Local Open Scope nat_scope.

Lemma collect A n (F : nat -> res A) (G : nat -> A) : (forall z, z < n -> F z = Ok (G z)) ->
  for_ n (fun z l => do x <- F z; Ok (l ++ [x])) [] = Ok (map G (seq 0 n)).
Proof.
  intros H. destruct (@for_inv _ (fun k l => l = map G (seq 0 k)) (fun z l => do x <- F z; Ok (l ++ [x])) n []) as (l & E & Pl).
  - reflexivity.
  - intros i l Hi ->. rewrite H by exact Hi. cbn [bind]. eexists. split; [reflexivity|]. rewrite seq_S, map_app. reflexivity.
  - now rewrite E, Pl.
Qed.

Section Out.
  Variables (T : Type) (N : Num T).
  Hypothesis H01 : nltb N (nofZ N 0) (nofZ N 1) = true.
  Hypothesis H00 : nltb N (nofZ N 0) (nofZ N 0) = false.
  Variable s : setup T.
  Variable st : Z.
  Variable o : mobj T.
  Hypothesis WF : well_formed N s.
  Hypothesis P : prepared N s st o.
  Hypothesis EP : prepare N s = Ok (st, o).
  Hypothesis WQ : forall vec z, z < npix s ->
    nmul N (used_weight N s o vec z) (used_weight N s o vec z) =
      if usable N s z then nmul N (sigma_weight N s vec z) (sigma_weight N s vec z) else nofZ N 0.
  Variable IS : Type.
  Variable create : IS -> list T -> res (IS * list T).
  Hypothesis SZ : Sizes create s.
  Variables f4 g g5 f6 : T -> str.
  Variable dec : nat -> str.
  Variable summary : Z -> Z -> str.

  Notation lk := (like N s o).

  Lemma like_flags o' ob : lk o' ob -> nValid o' = n_usable N s /\ statistic_name o' = lit (title s) /\
    (WhichFitStatistic o' false =? 2)%Z = match s_stat s with Cash => true | _ => false end.
  Proof.
    intros K. destruct (prepare_flags WF EP) as (FX & _).
    assert (A1 : nValid o' = nValid o) by (rewrite (lk_eq K); destruct ob; reflexivity).
    assert (A2 : useCash o' = useCash o) by (rewrite (lk_eq K); destruct ob; reflexivity).
    assert (A3 : poissonMLR o' = poissonMLR o) by (rewrite (lk_eq K); destruct ob; reflexivity).
    assert (A4 : modelErrors o' = modelErrors o) by (rewrite (lk_eq K); destruct ob; reflexivity).
    assert (A5 : externalErrors o' = externalErrors o) by (rewrite (lk_eq K); destruct ob; reflexivity).
    rewrite A1, (p_nv P). split; [reflexivity|].
    unfold statistic_name, WhichFitStatistic, title. rewrite A2, A3, A4, A5, (p_uc P), (p_mlr P), (p_mod P), FX.
    unfold user_errors. destruct (s_stat s); split; reflexivity.
  Qed.

  Lemma report_ok o' ob nFree solver status v : lk o' ob ->
    report N f6 summary o' nFree solver status v = report_lines N f6 (summary solver status) s nFree v.
  Proof.
    intros K. destruct (like_flags K) as (A & B & C). unfold report, report_lines. rewrite A, B, C.
    unfold reduced. destruct (s_stat s); reflexivity.
  Qed.

  Lemma img_model w vec ob : w_obj w = updated N s o vec ob -> w_vec w = Some vec -> List.length vec = model_size s ->
    resample_ok N s ob ->
    exists l, GetModelImageVector (IS := IS) w = Ok (Some l) /\ List.length l = npix s /\ l = model_image N s vec.
  Proof.
    intros E1 E2 L R. unfold GetModelImageVector. rewrite E2, E1.
    assert (A1 : doConvolution (updated N s o vec ob) = doConvolution o) by (destruct ob; reflexivity).
    assert (A2 : nDataVals (updated N s o vec ob) = npix s) by (rewrite <- (p_n P); destruct ob; reflexivity).
    assert (A3 : forall z, zModel (updated N s o vec ob) z = zModel o z) by (intros; destruct ob; reflexivity).
    rewrite A1, A2. destruct (doConvolution o) eqn:Ed.
    - rewrite (@collect T _ _ (model_at N s vec)).
      + cbn [bind]. eexists. split; [reflexivity|]. split; [now rewrite map_length, seq_length|reflexivity].
      + intros z Hz. rewrite A3. exact (model_index P L Hz).
    - pose proof (p_conv P) as PC. unfold model_image, model_at, model_size in *. destruct (s_psf s) as [[pc pr]|].
      + destruct PC as (PC & _). congruence.
      + exists vec. split; [reflexivity|]. split; [exact L|]. rewrite <- L. symmetry. exact (map_nth_seq vec (nofZ N 0)).
  Qed.
  Lemma img_residual w vec ob : w_obj w = updated N s o vec ob -> w_vec w = Some vec -> List.length vec = model_size s ->
    resample_ok N s ob ->
    GetResidualImageVector (IS := IS) N w = Ok (Some (residual_image N s vec)).
  Proof.
    intros E1 E2 L R. unfold GetResidualImageVector. rewrite E2, E1.
    assert (A2 : nDataVals (updated N s o vec ob) = npix s) by (rewrite <- (p_n P); destruct ob; reflexivity).
    assert (A3 : forall z, zModel (updated N s o vec ob) z = zModel o z) by (intros; destruct ob; reflexivity).
    assert (A4 : dataVector (updated N s o vec ob) = dataVector o) by (destruct ob; reflexivity).
    rewrite A2, A4.
    match goal with |- context [for_ _ ?f _] => assert (EX : for_ (npix s) f [] =
       for_ (npix s) (fun z l => do x <- (do d <- get (dataVector o) z; do y <- get vec (zModel (updated N s o vec ob) z); Ok (nsub N d y)); Ok (l ++ [x])) []) end.
    { apply for_ext. intros i l Hi. destruct (get (dataVector o) i); cbn [bind]; try reflexivity.
      destruct (get vec (zModel (updated N s o vec ob) i)); reflexivity. }
    rewrite EX, (@collect T _ _ (fun z => nsub N (clean_data N s z) (model_at N s vec z))); [reflexivity|].
    intros z Hz. rewrite (@at_get T N) by (rewrite (p_dl P); exact Hz). cbn [bind]. rewrite A3, (model_index P L Hz). cbn [bind].
    rewrite (p_d P Hz). reflexivity.
  Qed.
  Lemma img_weight w vec ob : w_obj w = updated N s o vec ob -> resample_ok N s ob ->
    GetWeightImageVector (IS := IS) N w = Ok (Some (weight_image N s vec)).
  Proof.
    intros E1 R. unfold GetWeightImageVector. rewrite E1. destruct (prepare_flags WF EP) as (_ & FX).
    assert (A1 : weightValsSet (updated N s o vec ob) = true) by (rewrite <- FX; destruct ob; reflexivity).
    assert (A2 : nDataVals (updated N s o vec ob) = npix s) by (rewrite <- (p_n P); destruct ob; reflexivity).
    assert (A3 : weightVector (updated N s o vec ob) = weights_for N s o vec) by (destruct ob; reflexivity).
    rewrite A1, A2, A3.
    match goal with |- context [for_ _ ?f _] => assert (EX : for_ (npix s) f [] =
       for_ (npix s) (fun z l => do x <- (do y <- get (weights_for N s o vec) z; Ok (nmul N y y)); Ok (l ++ [x])) []) end.
    { apply for_ext. intros i l Hi. destruct (get (weights_for N s o vec) i); reflexivity. }
    rewrite EX, (@collect T _ _ (fun z => if usable N s z then nmul N (sigma_weight N s vec z) (sigma_weight N s vec z) else nofZ N 0)); [reflexivity|].
    intros z Hz. rewrite (@at_get T N) by (rewrite (weights_len N s o vec); exact Hz). cbn [bind].
    rewrite (weights_at N o vec Hz). f_equal. exact (WQ vec Hz).
  Qed.
  Lemma save_ok (name : str) o' pix : nDataColumns o' = s_cols s -> nDataRows o' = s_rows s -> List.length pix = npix s ->
    save_image (T := T) name o' (Some pix) = Ok [OImage name (s_cols s) (s_rows s) pix].
  Proof.
    intros A B L. unfold save_image. rewrite A, B. fold (npix s). rewrite L, Nat.ltb_irrefl, <- L, firstn_all. reflexivity.
  Qed.

  Definition asks (op : opts T) (q : request) : Prop :=
    asked op K_saveModel K_outputModelFileName (q_model q) /\
    asked op K_saveResidualImage K_outputResidualFileName (q_residual q) /\
    asked op K_saveWeightImage K_outputWeightFileName (q_weight q).

  (** the three images *)
  Definition write_images (op : opts T) (stopped : bool) (w : world T IS) : res (list (output T)) :=
    do m <- as_bool (op K_saveModel); do mname <- as_str (op K_outputModelFileName);
    do out2 <- (if m && negb stopped then do l <- GetModelImageVector w; save_image mname (w_obj w) l else Ok []);
    do d <- as_bool (op K_saveResidualImage); do dname <- as_str (op K_outputResidualFileName);
    do out3 <- (if d && negb stopped then do l <- GetResidualImageVector N w; save_image dname (w_obj w) l else Ok []);
    do e <- as_bool (op K_saveWeightImage); do ename <- as_str (op K_outputWeightFileName);
    do out4 <- (if e && negb stopped then do l <- GetWeightImageVector N w; save_image ename (w_obj w) l else Ok []);
    Ok (out2 ++ out3 ++ out4).
  Lemma images_ok op q stopped w vec ob : asks op q -> w_obj w = updated N s o vec ob -> w_vec w = Some vec ->
    List.length vec = model_size s -> resample_ok N s ob ->
    write_images op stopped w = Ok (if stopped then [] else image_files N s q vec).
  Proof.
    intros (A1 & A2 & A3) E1 E2 L R. destruct A1 as (b1 & n1 & B1 & C1 & D1). destruct A2 as (b2 & n2 & B2 & C2 & D2). destruct A3 as (b3 & n3 & B3 & C3 & D3).
    unfold write_images. rewrite B1, C1, B2, C2, B3, C3. cbn [as_bool as_str bind].
    destruct (img_model E1 E2 L R) as (l & M1 & M2 & M3). rewrite M1, (img_residual E1 E2 L R), (img_weight E1 R). cbn [bind].
    assert (F1 : nDataColumns (w_obj w) = s_cols s) by (rewrite E1, <- (p_c P); destruct ob; reflexivity).
    assert (F2 : nDataRows (w_obj w) = s_rows s) by (rewrite E1, <- (p_r P); destruct ob; reflexivity).
    rewrite (save_ok n1 F1 F2 M2). rewrite (save_ok n2 F1 F2), (save_ok n3 F1 F2).
    2-3: unfold weight_image, residual_image; now rewrite map_length, seq_length.
    unfold image_files, image_file. rewrite D1, D2, D3, M3.
    destruct stopped, b1, b2, b3; reflexivity.
  Qed.

  Lemma outputs_split op header b offset nFree statOnly r w out :
    outputs N create f4 g g5 f6 summary op header b offset nFree statOnly r w = Ok out ->
    exists out1 w1 out2, out = out1 ++ out2 /\ write_images op (r_stopped r) w1 = Ok out2 /\
      (exists savePars pname solver, op K_saveBestFitParams = VB savePars /\ op K_outputParameterFileName = VS pname /\ op K_solver = VZ solver /\
       if savePars && negb statOnly then
         exists txt, save_parameters N create f4 g g5 f6 summary header b offset nFree solver r w = Ok (txt, w1) /\
           out1 = [OParameters (if r_stopped r then interruptedParameterFileName else pname) txt]
       else out1 = [] /\ w1 = w).
  Proof.
    unfold outputs. intros E. apply bind_Ok in E. destruct E as (sp & E1 & E). apply bind_Ok in E. destruct E as (pn & E2 & E).
    apply bind_Ok in E. destruct E as (sv & E3 & E). apply bind_Ok in E. destruct E as ([out1 w1] & E4 & E).
    assert (X : exists out2, write_images op (r_stopped r) w1 = Ok out2 /\ out = out1 ++ out2).
    { unfold write_images.
      apply bind_Ok in E. destruct E as (m & -> & E). apply bind_Ok in E. destruct E as (mn & -> & E). apply bind_Ok in E. destruct E as (o2 & F2 & E).
      cbn [bind]. rewrite F2. cbn [bind].
      apply bind_Ok in E. destruct E as (d & -> & E). apply bind_Ok in E. destruct E as (dn & -> & E). apply bind_Ok in E. destruct E as (o3 & F3 & E).
      cbn [bind]. rewrite F3. cbn [bind].
      apply bind_Ok in E. destruct E as (e & -> & E). apply bind_Ok in E. destruct E as (en & -> & E). apply bind_Ok in E. destruct E as (o4 & F4 & E).
      cbn [bind]. rewrite F4. cbn [bind]. eexists. split; [reflexivity|]. injection E as <-. reflexivity. }
    destruct X as (out2 & X1 & X2). exists out1, w1, out2. split; [exact X2|]. split; [exact X1|].
    unfold as_bool in E1. unfold as_str in E2. unfold as_int in E3.
    destruct (op K_saveBestFitParams) eqn:G1; try discriminate. destruct (op K_outputParameterFileName) eqn:G2; try discriminate.
    destruct (op K_solver) eqn:G3; try discriminate. injection E1 as <-. injection E2 as <-. injection E3 as <-.
    eexists _, _, _. split; [reflexivity|]. split; [reflexivity|]. split; [reflexivity|].
    destruct (_ && _).
    - apply bind_Ok in E4. destruct E4 as ([t w2] & E4 & E5). injection E5 as <- <-. eauto.
    - injection E4 as <- <-. auto.
  Qed.

  Lemma outputs_ok op q z header b offX offY nFree r w ob out : lk (w_obj w) ob ->
    Requested op q -> op K_solver = VZ z ->
    outputs N create f4 g g5 f6 summary op header b (offX, offY) nFree false r w = Ok out ->
    exists img vec v txt, create (w_img w) (r_params r) = Ok (img, vec) /\ StatisticOf N s ob vec v /\
      SaveParameters N f4 g g5 header (report_lines N f6 (summary z (r_status r)) s nFree v) b (nofZ N offX) (nofZ N offY) (r_params r) (r_errors r) = Ok txt /\
      out = OParameters (if r_stopped r then interruptedParameterFileName else q_params q) txt ::
            (if r_stopped r then [] else image_files N s q vec).
  Proof.
    intros K (Q1 & Q2 & Q3) QZ E. destruct (outputs_split E) as (out1 & w1 & out2 & -> & EW & sp & pn & sv & S1 & S2 & S3 & E1).
    rewrite Q1 in S1. injection S1 as <-. rewrite Q2 in S2. injection S2 as <-. rewrite QZ in S3. injection S3 as <-. cbn [andb negb] in E1.
    destruct E1 as (txt & E1 & ->). unfold save_parameters in E1. apply bind_Ok in E1. destruct E1 as ([v w2] & E1 & E2).
    apply bind_Ok in E2. destruct E2 as (txt' & E2 & E3). injection E3 as -> ->.
    destruct (fit_statistic_ok H01 H00 P EP SZ K E1) as (vec & F1 & F2 & F3 & F4).
    assert (K2 : lk (w_obj w1) ob) by (rewrite F3; apply (like_updated P vec (lk_ob K))).
    rewrite (report_ok _ _ _ _ K2) in E2. exists (w_img w1), vec, v, txt. split; [exact F1|]. split; [exact F2|]. split; [exact E2|].
    rewrite (images_ok _ Q3 F3 F4 (SZ F1) (lk_ob K)) in EW. injection EW as <-. reflexivity.
  Qed.
End Out.

(** ---- binary64 ---- *)
Lemma zero_sq (x : F64) : is_zero x = true -> f_mul x x = f_ofZ 0.
Proof. intros H. rewrite f0_shape. destruct x as [sg|sg| |sg mm e G]; try discriminate. destruct sg; reflexivity. Qed.

Section Float.
  Variable m : Libm.
  Notation N := (NumF m).
  Lemma weights_sq (s : setup F64) st o : prepared N s st o -> forall vec z, z < npix s ->
    nmul N (used_weight N s o vec z) (used_weight N s o vec z) =
      if usable N s z then nmul N (sigma_weight N s vec z) (sigma_weight N s vec z) else nofZ N 0.
  Proof.
    intros P vec z Hz. unfold used_weight, sigma_weight.
    destruct (usable N s z) eqn:U.
    - destruct (s_stat s); try reflexivity; rewrite (w_good P Hz U); reflexivity.
    - destruct (s_stat s); exact (zero_sq (w_bad P Hz U)).
  Qed.

  Variable s : setup F64.
  Hypothesis WF : well_formed N s.
  Variable IS : Type.
  Variable create : IS -> list F64 -> res (IS * list F64).
  Hypothesis SZ : Sizes create s.
  Variables f4 g g5 f6 : F64 -> str.
  Variable dec : nat -> str.
  Variable summary : Z -> Z -> str.
  Variable qsort : list F64 -> list F64.
  Variable clock : Z.
  Variable draws : Z -> nat -> F64.
  Variable fuel : nat.
  Variable obj : mobj F64.
  Hypothesis HO : SetupModelObject N s = Ok obj.
  Variables offX offY : Z.
  Variable psf : option (Z * Z).
  Variable bs : list (sblock F64).
  Variable b : built.
  Variable po : pout F64.
  Hypothesis HB : bs <> [] /\ Forall (fun b => s_funcs b <> []) bs /\ Forall (@Sized F64) (sall bs).
  Hypothesis HA : AddFunctions psf (map s_name (sall bs)) (map s_label (sall bs)) (sstarts bs) (map s_opts (sall bs)) = Ok (0%Z, Some b).
  Hypothesis HL : List.length (o_limits po) = List.length (o_params po).
  Variable header : list str.
  Variable img0 : IS.
  Variable solver : handover F64 -> session F64 (fitted F64).
  Variables lm nm : handover F64 -> list F64 -> session F64 (Z * list F64).
  Notation finish op := (finish_imfit N create f4 g g5 f6 dec summary qsort clock draws fuel op header b (offX, offY) po obj img0 solver lm nm).

  Lemma finish_start op z out : finish op = Ok (z, out) ->
    (z = (-1)%Z /\ out = [] /\ (List.length (o_params po) <> List.length (roles bs) \/ exists st o, prepare N s = Ok (st, o) /\ (st < 0)%Z)) \/
    (z = 0%Z /\ exists st o h statOnly out0 r w l w1 out1,
       prepare N s = Ok (st, o) /\ (0 <= st)%Z /\ prepared N s st o /\ List.length (o_params po) = List.length (roles bs) /\
       begin_imfit N b (offX, offY) po obj = Ok (inr (h, o)) /\
       Handed N offX offY bs (o_params po) (o_limits po) h /\ op K_printFitStatisticOnly = VB statOnly /\
       (if statOnly then exists y, print_statistic N create (h_free h) (h_start h) (mkWorld o img0 None (0%Z, 0)) = Ok y /\
            out0 = [fst y] /\ r = mkFitted 0 (h_start h) None false /\ w = snd y
        else exists y, converse N create (solver h) (mkWorld o img0 None (0%Z, 0)) = Ok y /\ out0 = [] /\ r = fst y /\ w = snd y) /\
       bootstrap N create f4 g g5 dec qsort clock draws fuel op header b (offX, offY) h (lm h) (nm h) r w = Ok (l, w1) /\
       outputs N create f4 g g5 f6 summary op header b (offX, offY) (h_free h) statOnly r w1 = Ok out1 /\
       out = out0 ++ l ++ out1).
  Proof.
    destruct (fprepare_ok (m := m) WF) as (st & o & EP & P).
    destruct (begin_imfit_ok offX offY HB HA HO HL EP) as (B1 & B2 & B3).
    unfold finish_imfit. intros E. apply bind_Ok in E. destruct E as (x & Eb & E).
    destruct (Nat.eq_dec (List.length (o_params po)) (List.length (roles bs))) as [En|En].
    2:{ rewrite (B1 En) in Eb. injection Eb as <-. injection E as <- <-. left. auto. }
    destruct (Z.lt_ge_cases st 0) as [Hs|Hs].
    { rewrite (B2 En Hs) in Eb. injection Eb as <-. injection E as <- <-. left. split; [reflexivity|]. split; [reflexivity|]. right. eauto. }
    destruct (B3 En Hs) as (h & Eh & HH). assert (Ex : x = inr (h, o)) by congruence. subst x. right.
    apply bind_Ok in E. destruct E as (so & Eo & E). apply bind_Ok in E. destruct E as ([[out0 r] w] & E1 & E).
    apply bind_Ok in E. destruct E as ([l w1] & E2 & E). apply bind_Ok in E. destruct E as (out1 & E3 & E). injection E as <- <-.
    cbn [fst snd] in E3. split; [reflexivity|]. exists st, o, h, so, out0, r, w, l, w1, out1.
    split; [exact EP|]. split; [exact Hs|]. split; [exact P|]. split; [exact En|]. split; [exact Eh|]. split; [exact HH|].
    split. { unfold as_bool in Eo. destruct (op K_printFitStatisticOnly); try discriminate. now injection Eo as ->. }
    split; [|split; [exact E2|split; [exact E3|reflexivity]]].
    destruct so; apply bind_Ok in E1; destruct E1 as (y & E1 & E4); injection E4 as <- <- <-; exists y; auto.
  Qed.

  Notation ok_pr := (@weights_sq s).

  Lemma finish_fit op q z out : op K_printFitStatisticOnly = VB false -> Requested op q -> op K_solver = VZ z ->
    finish op = Ok (0%Z, out) ->
    exists h r img, List.length (o_params po) = List.length (roles bs) /\
      Handed N offX offY bs (o_params po) (o_limits po) h /\ Answered N create s img0 (solver h) r img /\
      exists img1 img2 resample vec v txt l,
        create img1 (r_params r) = Ok (img2, vec) /\ StatisticOf N s resample vec v /\
        SaveParameters N f4 g g5 header (report_lines N f6 (summary z (r_status r)) s (h_free h) v) b (nofZ N offX) (nofZ N offY) (r_params r) (r_errors r) = Ok txt /\
        out = l ++ OParameters (if r_stopped r then interruptedParameterFileName else q_params q) txt ::
              (if r_stopped r then [] else image_files N s q vec) /\
        BootstrapOnly l /\
        (op K_doBootstrap = VB false \/ r_stopped r = true -> l = [] /\ resample = None /\ img1 = img).
  Proof.
    intros F0 FQ FZ E. destruct (finish_start E) as [(A & _)|(_ & X)]; [discriminate|].
    destruct X as (st & o & h & so & out0 & r & w & l & w1 & out1 & EP & Hs & P & En & Eb & HH & Eso & Ey & E2 & E3 & Eout).
    rewrite F0 in Eso. injection Eso as <-. destruct Ey as ([r' w'] & Ey & -> & Er & Ew). cbn [fst snd] in Er, Ew. subst r' w'.
    assert (K0 : winv N s o None (mkWorld o img0 None (0%Z, 0))) by exact (like_start P EP).
    pose proof (converse_answered (F01 m) (F00 m) P EP SZ K0 Ey) as AN. cbn [w_img] in AN.
    pose proof (converse_ok (F01 m) (F00 m) P EP SZ K0 Ey) as K1.
    exists h, r, (w_img w). split; [exact En|]. split; [exact HH|]. split; [exact AN|].
    assert (B : exists ob, winv N s o ob w1 /\ (op K_doBootstrap = VB false \/ r_stopped r = true -> l = [] /\ ob = None /\ w1 = w)).
    { destruct (bootstrap_inv (F01 m) (F00 m) P EP SZ K1 E2) as (ob & Kb).
      assert (D : (op K_doBootstrap = VB false \/ r_stopped r = true) \/ ~ (op K_doBootstrap = VB false \/ r_stopped r = true)).
      { destruct (r_stopped r); [left; now right|]. destruct (op K_doBootstrap) as [bb|zz|ss|xx|ll|nn|]; try (right; intros [?|?]; discriminate).
        destruct bb; [right; intros [?|?]; discriminate|left; now left]. }
      destruct D as [D|D]; [|exists ob; split; [exact Kb|intros; contradiction]].
      assert (X : l = [] /\ w1 = w).
      { unfold bootstrap in E2. apply bind_Ok in E2. destruct E2 as (bt & Ebt & E2). apply bind_Ok in E2. destruct E2 as (ni & Eni & E2).
        assert (Z0 : bt && (0 <? ni)%Z && negb (r_stopped r) = false).
        { destruct D as [D|D]; [rewrite D in Ebt; injection Ebt as <-; reflexivity|rewrite D; apply andb_false_r]. }
        rewrite Z0 in E2. injection E2 as <- <-. auto. }
      destruct X as (-> & ->). exists None. split; [exact K1|auto]. }
    destruct B as (ob & Kb & D).
    destruct (outputs_ok (F01 m) (F00 m) WF P EP (weights_sq P) SZ Kb FQ FZ E3) as (img2 & vec & v & txt & C1 & C2 & C3 & C4).
    exists (w_img w1), img2, ob, vec, v, txt, l. split; [exact C1|]. split; [exact C2|]. split; [exact C3|].
    split; [rewrite Eout, C4; reflexivity|].
    split.
    { clear -E2. unfold bootstrap in E2. apply bind_Ok in E2. destruct E2 as (bt & _ & E2). apply bind_Ok in E2. destruct E2 as (ni & _ & E2).
      destruct (bt && (0 <? ni)%Z && negb (r_stopped r)); [|injection E2 as <- _; now left].
      apply bind_Ok in E2. destruct E2 as (sv & _ & E2). apply bind_Ok in E2. destruct E2 as (nm1 & _ & E2).
      apply bind_Ok in E2. destruct E2 as (sd & _ & E2). apply bind_Ok in E2. destruct E2 as (hd & _ & E2).
      apply bind_Ok in E2. destruct E2 as ([[[x1 x2] x3] x4] & _ & E2). apply bind_Ok in E2. destruct E2 as (x5 & _ & E2).
      injection E2 as <- _. destruct sv; [right; eauto|now left]. }
    intros Dq. destruct (D Dq) as (-> & -> & ->). auto.
  Qed.

  Lemma finish_stat op q out : op K_printFitStatisticOnly = VB true -> asks op q -> op K_doBootstrap = VB false ->
    finish op = Ok (0%Z, out) ->
    exists h img vec v, List.length (o_params po) = List.length (roles bs) /\ Handed N offX offY bs (o_params po) (o_limits po) h /\
      create img0 (h_start h) = Ok (img, vec) /\ StatisticOf N s None vec v /\
      out = OStatistic v (reduced N s v (h_free h)) (corrected_AIC N v (nofZ N (h_free h)) (nofZ N (n_usable N s)))
              (BIC_of N v (nofZ N (h_free h)) (nofZ N (n_usable N s))) :: image_files N s q vec.
  Proof.
    intros F0 FQ FB E. destruct (finish_start E) as [(A & _)|(_ & X)]; [discriminate|].
    destruct X as (st & o & h & so & out0 & r & w & l & w1 & out1 & EP & Hs & P & En & Eb & HH & Eso & Ey & E2 & E3 & Eout).
    rewrite F0 in Eso. injection Eso as <-. destruct Ey as ([y w'] & Ey & -> & -> & Ew). cbn [fst snd] in *. subst w'.
    assert (K0 : winv N s o None (mkWorld o img0 None (0%Z, 0))) by exact (like_start P EP).
    unfold print_statistic in Ey. apply bind_Ok in Ey. destruct Ey as ([v w2] & Ey & E4). injection E4 as <- ->.
    destruct (fit_statistic_ok (F01 m) (F00 m) P EP SZ K0 Ey) as (vec & C1 & C2 & C3 & C4). cbn [w_img] in C1.
    assert (K2 : like N s o (w_obj w) None) by (rewrite C3; exact (like_updated P vec (ob := None) I)).
    destruct (like_flags WF P EP K2) as (N1 & _ & N2).
    exists h, (w_img w), vec, v. split; [exact En|]. split; [exact HH|]. split; [exact C1|]. split; [exact C2|].
    unfold bootstrap in E2. apply bind_Ok in E2. destruct E2 as (bt & Ebt & E2). apply bind_Ok in E2. destruct E2 as (ni & Eni & E2).
    rewrite FB in Ebt. injection Ebt as <-. cbn [andb] in E2. injection E2 as <- <-.
    destruct (outputs_split E3) as (o1 & w1 & o2 & -> & EW & sp & pn & sv & _ & _ & _ & E5). rewrite andb_false_r in E5. destruct E5 as (-> & ->).
    rewrite (images_ok WF P EP (weights_sq P) _ FQ (ob := None) C3 C4 (SZ C1) I) in EW. injection EW as <-.
    rewrite Eout. cbn [app r_stopped]. rewrite N1, N2. unfold reduced. destruct (s_stat s); reflexivity.
  Qed.
End Float.
