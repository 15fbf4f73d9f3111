(** Proofs for C74, continued: the run ends, and its parameter file can be read back. *)
From Coq Require Import ZArith List Bool Ascii String Reals Lia.
From Verif Require Import Base Num Fit_Model Fit_Spec Fit_Proof Fit_FloatProof StrUtil_Model StrUtil_Spec Config_Model Config_Spec Build_Model Params_Spec Build_Spec
  Save_Model Save_Spec Save_Proof Save_Final Opt_Model Start_Model Finish_Model Finish_Spec Finish_Hand Finish_Proof Finish_Out.
Import ListNotations.
Local Open Scope list_scope.
Set Implicit Arguments.
Unset Strict Implicit.
Local Open Scope nat_scope.

Section Shape.
  Variable T : Type.
  Lemma shape_all (bs bs' : list (sblock T)) : SameShape bs bs' ->
    Forall2 (fun f f' => s_name f' = s_name f /\ s_label f' = s_label f /\ s_opts f' = s_opts f /\
                         List.length (s_vals f') = List.length (s_vals f)) (sall bs) (sall bs').
  Proof. unfold sall. induction 1; [constructor|]. cbn [flat_map]. now apply Forall2_app. Qed.
  Lemma shape_map (bs bs' : list (sblock T)) : SameShape bs bs' ->
    map s_name (sall bs') = map s_name (sall bs) /\ map s_label (sall bs') = map s_label (sall bs) /\
    map s_opts (sall bs') = map s_opts (sall bs).
  Proof.
    intros H. apply shape_all in H. induction H as [|f f' l l' (A & B & C & _) H (IH1 & IH2 & IH3)]; [repeat split; reflexivity|].
    cbn [map]. rewrite A, B, C, IH1, IH2, IH3. repeat split; reflexivity.
  Qed.
  Lemma shape_starts (bs bs' : list (sblock T)) : SameShape bs bs' -> sstarts bs' = sstarts bs.
  Proof.
    unfold sstarts. intros H. generalize 0. induction H as [|b b' l l' A H IH]; intros n; [reflexivity|].
    cbn [map starts]. assert (L : List.length (s_funcs b') = List.length (s_funcs b)).
    { clear -A. induction A; [reflexivity|]. cbn [List.length]. now f_equal. }
    change (Params_Spec.b_funcs (as_blk b)) with (map s_vals (s_funcs b)). change (Params_Spec.b_funcs (as_blk b')) with (map s_vals (s_funcs b')). rewrite !map_length, L, IH. reflexivity.
  Qed.
  Lemma shape_good (bs bs' : list (sblock T)) : SameShape bs bs' -> GoodModel bs -> GoodModel bs'.
  Proof.
    intros H (A & B & C). split; [|split].
    - destruct H; [congruence|discriminate].
    - clear A C. induction H as [|b b' l l' HF H IH]; [constructor|]. apply Forall_cons_iff in B. destruct B as [B1 B2].
      constructor; [|now apply IH]. destruct HF; [congruence|discriminate].
    - apply shape_all in H. clear A B. induction H as [|f f' l l' (E1 & E2 & E3 & E4) H IH]; [constructor|].
      apply Forall_cons_iff in C. destruct C as [(C1 & C2 & C3) C4]. constructor; [|now apply IH].
      unfold Sized in *. rewrite E1, E2, E3, E4. auto.
  Qed.
End Shape.

Section Float.
  Variable m : Libm.
  Notation N := (NumF m).
  Variable s : setup F64.
  Hypothesis WF : well_formed N s.
  Variable IS : Type.
  Variable create : IS -> list F64 -> res (IS * list F64).
  Hypothesis SZ : Sizes create s.
  Hypothesis CT : forall i p, exists r, create i p = Ok r.
  Variables f4 g g5 f6 : F64 -> str.
  Variable dec : nat -> str.
  Variable summary : Z -> Z -> str.
  Variable qsort : list F64 -> list F64.
  Variable clock : Z.
  Variable draws : Z -> nat -> F64.
  Variable fuel : nat.
  Variable obj : mobj F64.
  Hypothesis HO : SetupModelObject N s = Ok obj.
  Variables offX offY : Z.
  Variable psf : option (Z * Z).
  Variable bs : list (sblock F64).
  Variable b : built.
  Variable po : pout F64.
  Hypothesis HG : GoodModel bs.
  Hypothesis HA : AddFunctions psf (map s_name (sall bs)) (map s_label (sall bs)) (sstarts bs) (map s_opts (sall bs)) = Ok (0%Z, Some b).
  Hypothesis HL : List.length (o_limits po) = List.length (o_params po).
  Hypothesis HN : List.length (o_params po) = List.length (roles bs).
  Variables (st : Z) (o : mobj F64).
  Hypothesis EP : prepare N s = Ok (st, o).
  Hypothesis Hst : (0 <= st)%Z.
  Variable header : list str.
  Hypothesis HH : Forall Comment header.
  Variable img0 : IS.
  Variable solver : handover F64 -> session F64 (fitted F64).
  Variables lm nm : handover F64 -> list F64 -> session F64 (Z * list F64).
  Variables (toR : F64 -> R) (finite : F64 -> Prop) (strtod : str -> F64) (IsNumeric : str -> bool).
  Hypothesis PF : PrintfOK toR finite f4 g g5.
  Hypothesis AD : AcceptsDecimals IsNumeric.
  Hypothesis F6 : forall v, OneLine (f6 v).
  Hypothesis SU : forall i j, OneLine (summary i j).
  Notation finish op := (finish_imfit N create f4 g g5 f6 dec summary qsort clock draws fuel op header b (offX, offY) po obj img0 solver lm nm).

  Notation result_of := (ResultOf finite (nadd N) (nofZ N offX) (nofZ N offY) bs).

  Lemma converse_ends A (Q : A -> Prop) (q : session F64 A) : EndsIn Q q -> forall w a w', converse N create q w = Ok (a, w') -> Q a.
  Proof.
    induction q as [a0|p k IH|p k IH]; cbn [EndsIn converse]; intros H w a w' E.
    - injection E as <- _. exact H.
    - apply bind_Ok in E. destruct E as ([v w1] & _ & E). exact (IH _ (H _) _ _ _ E).
    - apply bind_Ok in E. destruct E as ([v w1] & _ & E). exact (IH _ (H _) _ _ _ E).
  Qed.

  Lemma OneLine_report alg nFree v : OneLine alg -> Forall OneLine (report_lines N f6 alg s nFree v).
  Proof.
    intros HA1. unfold report_lines. cbv zeta.
    apply Forall_cons; [exact HA1|].
    apply Forall_cons; [unfold title; destruct (s_stat s); apply oneline_true; vm_compute; reflexivity|].
    apply Forall_cons; [apply OneLine_app; [apply oneline_true; reflexivity|apply F6]|].
    apply Forall_cons; [apply OneLine_app; [apply oneline_true; reflexivity|destruct (reduced N s v nFree); [apply F6|apply oneline_true; reflexivity]]|].
    apply Forall_cons; [apply OneLine_app; [apply oneline_true; reflexivity|apply F6]|].
    apply Forall_cons; [apply OneLine_app; [apply oneline_true; reflexivity|apply F6]|].
    apply Forall_nil.
  Qed.

  Lemma finish_total op q z ni : op K_printFitStatisticOnly = VB false -> Requested op q -> op K_solver = VZ z ->
    op K_doBootstrap = VB false -> op K_bootstrapIterations = VZ ni ->
    (forall h, Handed N offX offY bs (o_params po) (o_limits po) h -> EndsIn (fun r => exists bs', result_of r bs') (solver h)) ->
    exists r img bs' h txt rest, Handed N offX offY bs (o_params po) (o_limits po) h /\ Answered N create s img0 (solver h) r img /\ result_of r bs' /\
      finish op = Ok (0%Z, OParameters (if r_stopped r then interruptedParameterFileName else q_params q) txt :: rest) /\
      (exists out, ReadConfigFile_full N strtod IsNumeric (file_lines txt) true [] = Ok (0%Z, Some (out, [])) /\
         ReadBack toR (nadd N) (nofZ N 0) strtod (nofZ N offX) (nofZ N offY) bs' out) /\
      (forall opt0, exists out, ReadConfigFile_limited N strtod IsNumeric (file_lines txt) true opt0 = Ok (0%Z, Some (out, [])) /\
         ReadBack toR (nadd N) (nofZ N 0) strtod (nofZ N offX) (nofZ N offY) bs' out).
  Proof.
    intros G0 GQ GZ GB GI GE.
    assert (HB : bs <> [] /\ Forall (fun b => s_funcs b <> []) bs /\ Forall (@Sized F64) (sall bs)).
    { destruct (HG) as (A & B & C). split; [exact A|]. split; [exact B|]. revert C. apply Forall_impl. tauto. }
    pose proof (fprepared WF EP) as P.
    destruct (begin_imfit_ok offX offY HB HA HO HL EP) as (_ & _ & B3). destruct (B3 HN Hst) as (h & Eh & HHd).
    assert (K0 : winv N s o None (mkWorld o img0 None (0%Z, 0))) by exact (like_start P EP).
    destruct (converse_total (F01 m) (F00 m) P EP SZ (solver h) CT K0) as (r & w & Ec).
    pose proof (converse_answered (F01 m) (F00 m) P EP SZ K0 Ec) as AN. cbn [w_img] in AN.
    pose proof (converse_ok (F01 m) (F00 m) P EP SZ K0 Ec) as K1.
    destruct (converse_ends (GE h HHd) Ec) as (bs' & RS). destruct RS as (R1 & R2 & R3 & R4).
    destruct (shape_map R1) as (S1 & S2 & S3). pose proof (shape_starts R1) as S4.
    assert (HA' : AddFunctions psf (map s_name (sall bs')) (map s_label (sall bs')) (sstarts bs') (map s_opts (sall bs')) = Ok (0%Z, Some b))
      by (rewrite S1, S2, S3, S4; exact HA).
    (* the statistic *)
    assert (FS : exists v w2, fit_statistic N create w (r_params r) = Ok (v, w2)).
    { unfold fit_statistic. destruct (CT (w_img w) (r_params r)) as ([img vec] & Ecr). rewrite Ecr. cbn [bind].
      destruct (statistic_total (F01 m) (F00 m) P EP K1 (SZ Ecr)) as (o2 & v & Es). rewrite Es. cbn [bind]. eauto. }
    destruct FS as (v & w2 & Efs). destruct (fit_statistic_ok (F01 m) (F00 m) P EP SZ K1 Efs) as (vec & C1 & C2 & C3 & C4).
    assert (K2 : like N s o (w_obj w2) None) by (rewrite C3; exact (like_updated P vec (ob := None) I)).
    assert (OL : Forall OneLine (report_lines N f6 (summary z (r_status r)) s (h_free h) v)) by (apply OneLine_report; apply SU).
    destruct (@save_read F64 N toR finite f4 g g5 strtod IsNumeric psf bs' b (nofZ N offX) (nofZ N offY) (r_errors r) header
                (report_lines N f6 (summary z (r_status r)) s (h_free h) v) PF AD HA' (shape_good R1 HG) R3 R4 HH OL) as (txt & ET & RB1 & RB2).
    exists r, (w_img w), bs', h, txt, (if r_stopped r then [] else image_files N s q vec).
    split; [exact HHd|]. split; [exact AN|]. split; [split; [exact R1|split; [exact R2|split; [exact R3|exact R4]]]|].
    split; [|split; [exact RB1|exact RB2]].
    unfold finish_imfit. rewrite Eh. cbn [bind]. rewrite G0. cbn [as_bool bind]. rewrite Ec. cbn [bind fst snd].
    unfold bootstrap. rewrite GB, GI. cbn [as_bool as_int bind andb fst snd].
    unfold outputs. destruct GQ as (Q1 & Q2 & Q3). rewrite Q1, Q2, GZ. cbn [as_bool as_str as_int bind andb negb].
    unfold save_parameters. rewrite Efs. cbn [bind]. rewrite (report_ok WF P EP f6 summary _ _ _ _ K2). cbn [fst snd]. rewrite <- R2, ET. cbn [bind fst snd].
    pose proof (images_ok WF P EP (weights_sq P) (r_stopped r) Q3 (ob := None) C3 C4 (SZ C1) I) as EI. unfold write_images in EI.
    apply bind_Ok in EI. destruct EI as (x1 & -> & EI). apply bind_Ok in EI. destruct EI as (x2 & -> & EI). apply bind_Ok in EI. destruct EI as (x3 & X3 & EI).
    cbn [bind]. rewrite X3. cbn [bind].
    apply bind_Ok in EI. destruct EI as (y1 & -> & EI). apply bind_Ok in EI. destruct EI as (y2 & -> & EI). apply bind_Ok in EI. destruct EI as (y3 & Y3 & EI).
    cbn [bind]. rewrite Y3. cbn [bind].
    apply bind_Ok in EI. destruct EI as (u1 & -> & EI). apply bind_Ok in EI. destruct EI as (u2 & -> & EI). apply bind_Ok in EI. destruct EI as (u3 & U3 & EI).
    cbn [bind]. rewrite U3. cbn [bind]. injection EI as EI. rewrite <- EI. reflexivity.
  Qed.
End Float.
