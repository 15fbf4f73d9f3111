(** Proofs for C77: the table of fluxes. *)
From Coq Require Import ZArith List Bool Ascii String Reals Lia Lra.
From Verif Require Import Base Num Sums Params_Model Params_Spec Params_Proof Conv_Model Conv_Spec Image_Model Image_Spec Image_Proof Image_History Par_Model Par_Spec
  CmdLine_Spec Opt_Spec Opt_Num Start_Spec Config_Model Build_Spec Build_Proof Save_Spec.
From Verif Require Import StrUtil_Model Save_Model Opt_Model Start_Model Make_Model Make_Spec Make_Image.
From Verif Require Save_Proof Props_Par.
Import ListNotations.
Local Open Scope string_scope.
Local Open Scope list_scope.
Local Open Scope nat_scope.
Set Implicit Arguments.
Unset Strict Implicit.

Lemma seen_vals (T : Type) (bs : list (sblock T)) : map snd (seen (map as_blk bs)) = map s_vals (sall bs).
Proof.
  unfold seen, sall. induction bs as [|b bs IH]; [reflexivity|]. cbn [map flat_map]. rewrite !map_app, IH. f_equal.
  cbn [as_blk Params_Spec.b_funcs b_x b_y]. rewrite !map_map. reflexivity.
Qed.

Lemma no_nul_blanks n : no_nul (blanks n).
Proof. unfold no_nul, blanks. intros H. apply repeat_spec in H. discriminate. Qed.
Lemma no_nul_nl : no_nul newline.
Proof. intros [H|[]]. discriminate. Qed.

Section Flux.
  Variable implement : word -> component R.
  Variable strtod : word -> R.
  Variable dbl : string -> R.
  Variable log10 : R -> R.
  Variables e4 f4 f5 e3 g : R -> word.
  Variable dec : nat -> word.
  Variables timestamp program : word.
  Variable its : list item.
  Variable bs : list (sblock R).
  Variable b : built.
  Variable o : opts R.
  Variables nThreads chunk : nat.
  Hypothesis HB : blocks_ok (map as_blk bs).
  Hypothesis HFl : Build_Model.b_flags b = flag_list (map as_blk bs).
  Hypothesis HM : Forall2 MadeFrom (Build_Model.b_funcs b) (sall bs).
  Hypothesis HI : Forall (Implemented implement) (sall bs).
  Hypothesis HPS : PrintfShort e4 f4 f5 e3 g dec timestamp program.
  Hypothesis HC : Short 900 (config_file its).
  Hypothesis HLb : Forall (fun f => Short 900 (s_label f)) (sall bs).
  Hypothesis HZ : ZeroPointOk strtod its dbl.
  Hypothesis HT : 0 < nThreads.
  Hypothesis HE : 1 <= estimation_size its.
  Hypothesis o1 : o K_printFluxes = VB (given its ["print-fluxes"]).
  Hypothesis o2 : o K_saveFluxes = VB (Opt_Spec.has its "save-fluxes").
  Hypothesis o3 : o K_saveFluxesFileName = Opt_Spec.text R its ["save-fluxes"] "".
  Hypothesis o4 : o K_configFileName = VS (config_file its).
  Hypothesis o5 : o K_estimationImageSize = Opt_Spec.count R its "estimation-size" 5000.
  Hypothesis o6 : o K_magZeroPoint = @Opt_Spec.real R strtod dbl its "zero-point" "-10000.0".
  Hypothesis no_nuls : forall v, In v (values its ["save-fluxes"]) -> no_nul v.

  Definition zp_val : R := match values its ["zero-point"] with v :: _ => strtod v | [] => dbl "-10000.0" end.
  Lemma zp_cases : (zero_point strtod its = None /\ neqb NumR zp_val (NO_MAGNITUDES NumR) = true) \/
    (zero_point strtod its = Some zp_val /\ neqb NumR zp_val (NO_MAGNITUDES NumR) = false).
  Proof.
    destruct HZ as [Z1 Z2]. unfold zero_point, zp_val, Start_Spec.first in *.
    destruct (values its ["zero-point"]) as [|v l] eqn:E.
    - left. split; [reflexivity|]. unfold NO_MAGNITUDES. cbn [neqb NumR nofZ]. rewrite Z1. unfold Reqb.
      destruct (Req_EM_T (-10000) (-10000)); [reflexivity|congruence].
    - right. split; [reflexivity|]. specialize (Z2 _ eq_refl). unfold NO_MAGNITUDES. cbn [neqb NumR nofZ]. unfold Reqb.
      destruct (Req_EM_T (strtod v) (-10000)); [contradiction|reflexivity].
  Qed.

  Notation ROW := (table_row strtod log10 e4 f4 f5 e3 its).
  Notation FLUX := (flux_of implement its).
  Notation TOTAL := (total_flux implement its bs).

  Lemma row_no_nul name label flux fraction : no_nul name -> no_nul label -> no_nul (ROW name label flux fraction).
  Proof.
    intros Hn Hl. destruct HPS as (P & _). unfold table_row, fraction_text.
    repeat (apply no_nul_app; split); auto using no_nul_blanks, no_nul_nl.
    - apply no_nul_wd; reflexivity.
    - apply P.
    - destruct (magnitude strtod log10 its flux); [apply no_nul_app; split; [apply no_nul_wd; reflexivity|apply P]|apply no_nul_wd; reflexivity].
    - destruct (Req_EM_T fraction 0); [apply P|]. destruct (Rle_dec (1 / 10000) fraction); apply P.
    - destruct label as [|a l]; [intros []|]. apply no_nul_app. split; [apply no_nul_wd; reflexivity|exact Hl].
  Qed.

  Lemma row_ok name label flux fraction : Short 40 name -> Short 900 label ->
    flux_line NumR log10 e4 f4 f5 e3 zp_val name label flux fraction = Ok (ROW name label flux fraction).
  Proof.
    intros [N1 N2] [L1 L2]. destruct HPS as (P & _). unfold flux_line.
    rewrite (Opt_Num.cstr_no_nul N2). rewrite print_le.
    2:{ unfold pad25. rewrite !app_length, repeat_length. change (List.length (lit " ")) with 1. destruct (P flux) as ((A & _) & _). lia. }
    cbn [bind].
    assert (EB : (if negb (neqb NumR zp_val (NO_MAGNITUDES NumR)) && nltb NumR (nofZ NumR 0) flux
         then PrintToString (lit "   " ++ f4 (nsub NumR zp_val (nmul NumR (ndec NumR 25 1) (log10 flux))))
         else PrintToString (lit "      ---")) =
       Ok (match magnitude strtod log10 its flux with Some m => wd "   " ++ f4 m | None => wd "      ---" end)).
    { unfold magnitude. destruct zp_cases as [[-> ->]|[-> ->]]; cbn [negb andb].
      - apply print_le. cbn. lia.
      - cbn [nltb NumR nofZ]. unfold Rltb. destruct (Rlt_dec 0 flux) as [H|H].
        + cbn [nsub nmul ndec NumR]. rewrite print_le.
          * f_equal. f_equal. f_equal. change (IZR (10 ^ 1)) with 10%R. lra.
          * rewrite app_length. change (List.length (lit "   ")) with 3.
            match goal with |- context [f4 ?x] => destruct (P x) as (_ & (A & _) & _) end. lia.
        + apply print_le. cbn. lia. }
    rewrite EB. cbn [bind].
    assert (EC : (if nleb NumR (ndec NumR 1 4) fraction || neqb NumR fraction (nofZ NumR 0)
         then PrintToString (f5 fraction) else PrintToString (e3 fraction)) = Ok (fraction_text f5 e3 fraction)).
    { unfold fraction_text. cbn [nleb neqb ndec nofZ NumR]. unfold Rleb, Reqb.
      change (IZR (10 ^ 4)) with 10000%R. destruct (P fraction) as (_ & _ & (A & _) & (B & _) & _).
      destruct (Req_EM_T fraction 0) as [->|Hne].
      - rewrite orb_true_r. apply print_le. lia.
      - rewrite orb_false_r. destruct (Rle_dec (1 / 10000) fraction); apply print_le; lia. }
    rewrite EC. cbn [bind].
    assert (ED : (match label with [] => Ok [] | _ => PrintToString (lit "    " ++ c_str label) end) =
       Ok (match label with [] => [] | _ => wd "    " ++ label end)).
    { destruct label as [|a l]; [reflexivity|]. rewrite (Opt_Num.cstr_no_nul L2). apply print_le. rewrite app_length.
      change (List.length (wd "    ")) with 4. lia. }
    rewrite ED. cbn [bind]. f_equal. unfold table_row, pad25, blanks. rewrite <- !app_assoc. reflexivity.
  Qed.

  Definition comps : list (component R) := map (fun f => implement (c_name (fo_class f))) (Build_Model.b_funcs b).
  Lemma comps_eq : comps = map (fun f => implement (s_name f)) (sall bs).
  Proof.
    unfold comps. generalize HM. clear. generalize (Build_Model.b_funcs b), (sall bs). intros os l H.
    induction H as [|x f xs fs [[_ M] _ _] HF IH]; [reflexivity|]. cbn [map]. now rewrite IH, M.
  Qed.
  Lemma comps_sizes : map (fun c => fn_nParams (co_func c)) comps = sizes (map as_blk bs).
  Proof.
    rewrite comps_eq, map_map. unfold sizes. 
    transitivity (map (fun f : sfunc R => List.length (s_vals f)) (sall bs)).
    - apply map_ext_in. intros f Hf. rewrite Forall_forall in HI. destruct (HI f Hf) as (A & _). exact A.
    - clear. unfold sall. induction bs as [|x l IH]; [reflexivity|]. cbn [map flat_map]. rewrite map_app, IH. f_equal.
      cbn [as_blk Params_Spec.b_funcs]. now rewrite map_map.
  Qed.

  Lemma total_eq w h : map (fun '(c, (_, _, p)) => if co_background c then 0%R else component_flux c p w h) (combine comps (seen (map as_blk bs))) =
    map (fun f => if co_background (implement (s_name f)) then 0%R else component_flux (implement (s_name f)) (s_vals f) w h) (sall bs).
  Proof.
    rewrite comps_eq. pose proof (seen_vals bs) as E. revert E. generalize (seen (map as_blk bs)). clear. generalize (sall bs). intros l.
    induction l as [|f l IH]; intros [|[[x y] p] es] E; try discriminate; [reflexivity|].
    cbn [map snd combine] in *. injection E as E1 E2. rewrite (IH es E2), E1. reflexivity.
  Qed.

  Lemma row_loop fluxes total : List.length fluxes = List.length (sall bs) ->
    (forall n f, nth_error (sall bs) n = Some f -> nth_error fluxes n = Some (FLUX f)) -> total = TOTAL ->
    for_ (S (List.length (Build_Model.b_funcs b))) (fun n lines =>
        do l <- (if (n =? List.length (Build_Model.b_funcs b))%nat then
                   do l <- flux_line NumR log10 e4 f4 f5 e3 zp_val (lit "Total") [] total (nofZ NumR 1); Ok (NL ++ l)
                 else
                   do f <- get (Build_Model.b_funcs b) n; do thisFlux <- get fluxes n;
                   flux_line NumR log10 e4 f4 f5 e3 zp_val (c_name (fo_class f)) (fo_label f) thisFlux (ndiv NumR thisFlux total));
        Ok (lines ++ [l])) [] = Ok (table_rows implement strtod log10 e4 f4 f5 e3 its bs).
  Proof.
    intros LF HF ET. pose proof (Forall2_len HM) as LM. rewrite LM.
    set (row := fun f => ROW (s_name f) (s_label f) (FLUX f) (FLUX f / TOTAL)).
    match goal with |- for_ _ ?body0 _ = _ => set (body := body0) end.
    rewrite for_S.
    destruct (@for_inv (list str) (fun i x => x = map row (firstn i (sall bs))) body (List.length (sall bs)) []) as (x & E & Ex).
    - reflexivity.
    - intros i x Hi ->. unfold body.
      replace (i =? List.length (sall bs)) with false by (symmetry; apply Nat.eqb_neq; lia).
      destruct (nth_error (sall bs) i) as [f|] eqn:Ef; [|apply nth_error_None in Ef; lia].
      destruct (Forall2_nth_error HM) as (_ & F2). destruct (F2 i) as (u & f' & E1 & E2 & [[M1 M1'] M2 _]); [lia|].
      rewrite Ef in E2. injection E2 as <-. unfold get. rewrite E1. cbn [bind]. rewrite (HF i f Ef). cbn [bind].
      rewrite M1', M2. rewrite row_ok.
      + cbn [bind]. eexists. split; [reflexivity|]. cbn [ndiv NumR]. rewrite ET.
        replace (firstn (S i) (sall bs)) with (firstn i (sall bs) ++ [f]).
        * now rewrite map_app.
        * clear -Ef. revert i Ef. induction (sall bs) as [|a l IH]; intros [|i] Ef; cbn in *; try discriminate; [congruence|]. f_equal. apply IH. exact Ef.
      + rewrite <- M1'. now apply class_short.
      + rewrite Forall_forall in HLb. apply HLb. eapply nth_error_In; eauto.
    - rewrite E. cbn [bind]. unfold body. rewrite Nat.eqb_refl. rewrite row_ok.
      + cbn [bind nofZ NumR]. f_equal. rewrite Ex, firstn_all, ET. reflexivity.
      + split; [cbn; lia|apply no_nul_wd; reflexivity].
      + split; [cbn; lia|intros []].
  Qed.

  Lemma rows_c_str : map c_str (table_rows implement strtod log10 e4 f4 f5 e3 its bs) = table_rows implement strtod log10 e4 f4 f5 e3 its bs.
  Proof.
    unfold table_rows. rewrite map_app, map_map. cbn [map]. f_equal.
    - apply map_ext_in. intros f Hf. apply Opt_Num.cstr_no_nul. apply row_no_nul.
      + destruct (In_nth_error _ _ Hf) as (i & Ei). destruct (Forall2_nth_error HM) as (L & F2).
        destruct (F2 i) as (u & f' & E1 & E2 & [[M1 M1'] M2 _]).
        { rewrite L. apply nth_error_Some. congruence. }
        rewrite Ei in E2. injection E2 as <-. rewrite <- M1'. now apply class_short.
      + rewrite Forall_forall in HLb. now apply HLb.
    - f_equal. apply Opt_Num.cstr_no_nul. apply no_nul_app. split; [exact no_nul_nl|]. apply row_no_nul; [apply no_nul_wd; reflexivity|intros []].
  Qed.

  Notation RUN := (fun sched => DetermineFluxes NumR implement log10 e4 f4 f5 e3 g timestamp program nThreads chunk sched o b (flat (map as_blk bs))).
  Notation TABLES := (Tables implement strtod log10 e4 f4 f5 e3 g timestamp program its bs).

  Lemma fluxes_rest sched total fluxes :
    Par_Model.FindTotalFluxes NumR nThreads chunk comps (flag_list (map as_blk bs)) (flat (map as_blk bs)) (estimation_size its) (estimation_size its)
       (repeat 0%R (List.length (Build_Model.b_funcs b))) sched = Ok (total, fluxes) ->
    List.length fluxes = List.length (sall bs) ->
    (forall n f, nth_error (sall bs) n = Some f -> nth_error fluxes n = Some (FLUX f)) -> total = TOTAL ->
    RUN sched = Ok TABLES.
  Proof.
    intros E LF HF ET. unfold DetermineFluxes. rewrite o1, o2, o5, o6. cbn [as_bool bind].
    assert (ES : as_int (Opt_Spec.count R its "estimation-size" 5000) = Ok (match values its ["estimation-size"] with v :: _ => integer v | [] => 5000%Z end))
      by (unfold Opt_Spec.count; destruct (values its ["estimation-size"]); reflexivity).
    rewrite ES. cbn [bind].
    assert (EZ : as_real (@Opt_Spec.real R strtod dbl its "zero-point" "-10000.0") = Ok zp_val)
      by (unfold Opt_Spec.real, zp_val; destruct (values its ["zero-point"]); reflexivity).
    rewrite EZ. cbn [bind]. rewrite HFl. fold comps.
    match goal with |- context [Z.to_nat ?z] => change (Z.to_nat z) with (estimation_size its) end.
    change (nofZ NumR 0) with 0%R. rewrite E. cbn [bind]. rewrite (row_loop LF HF ET). cbn [bind]. rewrite rows_c_str.
    destruct HPS as (P & _ & (T1 & T2) & (Q1 & Q2)). destruct HC as [C1 C2].
    unfold Tables. f_equal.
    destruct (given its ["print-fluxes"]); cbv iota.
    all: unfold Opt_Spec.has, Start_Spec.first; rewrite o3, o4; unfold Opt_Spec.text;
      destruct (values its ["save-fluxes"]) as [|v l] eqn:EV; cbn [hd_error]; [reflexivity|];
      cbn [as_str bind];
      rewrite (Opt_Num.cstr_no_nul Q2), (Opt_Num.cstr_no_nul C2), (@Opt_Num.cstr_no_nul v) by (apply no_nuls; left; reflexivity);
      rewrite print_le by (rewrite !app_length; cbn; lia); cbn [bind];
      rewrite print_le by (rewrite !app_length; cbn; lia); cbn [bind];
      destruct zp_cases as [[-> ->]|[-> ->]]; cbn [negb bind]; try reflexivity;
      rewrite print_le by (rewrite !app_length; destruct (P zp_val) as (_ & _ & _ & _ & (A & _)); cbn; lia); cbn [bind]; reflexivity.
  Qed.

  Lemma fluxes_ok : (forall sched, RUN sched = Fuel \/ RUN sched = Ok TABLES) /\ exists sched, RUN sched = Ok TABLES.
  Proof.
    pose proof (Forall2_len HM) as LM. assert (LC : List.length comps = List.length (sall bs)) by (rewrite comps_eq; apply map_length).
    assert (DF : DefineFunctionSets (List.length comps) (starts 0 (map as_blk bs)) = Ok (flag_list (map as_blk bs))).
    { rewrite <- (map_length (fun c => fn_nParams (co_func c)) comps), comps_sizes. apply defsets_ok. exact HB. }
    destruct (@Props_Par.C65_fluxes nThreads chunk comps (map as_blk bs) (flag_list (map as_blk bs)) (estimation_size its) (estimation_size its)
       (repeat 0%R (List.length (Build_Model.b_funcs b))) HT HB comps_sizes DF HE HE) as (total & fluxes & Etot & Lf & Vf & _ & A & (s & B)).
    - rewrite repeat_length, LC. lia.
    - intros c p x y Hc Hp. rewrite comps_eq in Hc. apply in_map_iff in Hc. destruct Hc as (f & <- & Hf).
      rewrite Forall_forall in HI. destruct (HI f Hf) as (_ & _ & I1 & I2). apply I2. apply I1. exact Hp.
    - rewrite repeat_length in Lf. rewrite total_eq in Etot.
      assert (HF : forall n f, nth_error (sall bs) n = Some f -> nth_error fluxes n = Some (FLUX f)).
      { intros n f En. assert (Ec : nth_error comps n = Some (implement (s_name f))) by (rewrite comps_eq, nth_error_map, En; reflexivity).
        assert (Ln : n < List.length (sall bs)) by (apply nth_error_Some; congruence).
        destruct (nth_error (seen (map as_blk bs)) n) as [[[x y] p]|] eqn:Es.
        2:{ exfalso. apply nth_error_None in Es. rewrite <- (map_length snd), seen_vals, map_length in Es. lia. }
        assert (Ep : p = s_vals f).
        { assert (Q : nth_error (map snd (seen (map as_blk bs))) n = Some p) by (rewrite nth_error_map, Es; reflexivity).
          rewrite seen_vals, nth_error_map, En in Q. injection Q as <-. reflexivity. }
        rewrite (Vf n _ x y p Ec Es). unfold flux_of. destruct (co_background (implement (s_name f))); [|now rewrite Ep].
        rewrite nth_error_repeat by lia. reflexivity. }
      assert (LF : List.length fluxes = List.length (sall bs)) by lia.
      split.
      + intros sched. destruct (A sched) as [E|E].
        * left. unfold DetermineFluxes. rewrite o1, o2, o5, o6. cbn [as_bool bind].
          assert (ES : as_int (Opt_Spec.count R its "estimation-size" 5000) = Ok (match values its ["estimation-size"] with v :: _ => integer v | [] => 5000%Z end))
            by (unfold Opt_Spec.count; destruct (values its ["estimation-size"]); reflexivity).
          rewrite ES. cbn [bind].
          assert (EZ : as_real (@Opt_Spec.real R strtod dbl its "zero-point" "-10000.0") = Ok zp_val)
            by (unfold Opt_Spec.real, zp_val; destruct (values its ["zero-point"]); reflexivity).
          rewrite EZ. cbn [bind]. rewrite HFl. fold comps.
          match goal with |- context [Z.to_nat ?z] => change (Z.to_nat z) with (estimation_size its) end.
          change (nofZ NumR 0) with 0%R. rewrite E. reflexivity.
        * right. exact (fluxes_rest E LF HF Etot).
      + exists s. exact (fluxes_rest B LF HF Etot).
  Qed.

  (** the fractions add up to 1 *)
  Lemma fractions_sum : TOTAL <> 0%R -> rsuml (map (fun f => FLUX f / TOTAL)%R (sall bs)) = 1%R.
  Proof.
    intros H. assert (G : forall l t, rsuml (map (fun f => FLUX f / t)%R l) = (rsuml (map FLUX l) / t)%R).
    { intros l t. induction l as [|f l IH].
      - unfold rsuml. cbn. unfold Rdiv. lra.
      - cbn [map]. change (rsuml ((FLUX f / t)%R :: map (fun f => FLUX f / t)%R l)) with (FLUX f / t + rsuml (map (fun f => FLUX f / t)%R l))%R.
        change (rsuml (FLUX f :: map FLUX l)) with (FLUX f + rsuml (map FLUX l))%R. rewrite IH. unfold Rdiv. lra. }
    rewrite G. unfold total_flux in *. now apply Rinv_r.
  Qed.
End Flux.
