(** Proofs about the configuration files that multimfit saves for the single images. *)
From Coq Require Import Ascii String List ZArith Lia Bool Reals.
From Verif Require Import Base Num StrUtil_Model StrUtil_Spec StrUtil_Proof Config_Model Config_Spec Config_Proof ConfigL_Spec ConfigL_Proof.
From Verif Require Import ImgPar_Model Params_Model Params_Spec Params_Proof Build_Model Save_Model Save_Spec Build_Spec Build_Proof Save_Proof Save_Final.
From Verif Require Import Multi_Model Multi_Spec Multi_Proof Multi_Draw Multi_TextSpec Multi_Text Multi_FilesSpec.
Import ListNotations.
Set Implicit Arguments. Unset Strict Implicit.
Local Open Scope list_scope.

(** ---- the same model with other values ---- *)
Section Same.
  Variable T : Type.
  Implicit Types bs : list (sblock T).
  Lemma refit_shape bs bs' : Refitted bs bs' -> same_shape bs bs'.
  Proof.
    unfold Refitted, same_shape. induction 1 as [|b b' l l' H _ IH]; constructor; auto.
    induction H as [|f f' m m' (H1 & H2 & H3 & H4) _ IHf]; constructor; auto. repeat split; auto.
  Qed.
  Lemma refit_app (a a' b b' : list (sblock T)) : Refitted a a' -> Refitted b b' -> Refitted (a ++ b) (a' ++ b').
  Proof. apply Forall2_app. Qed.
  Lemma refit_made os bs bs' : Refitted bs bs' -> Forall2 MadeBy os (sall bs) -> Forall2 MadeBy os (sall bs').
  Proof.
    intros H. assert (HS : Forall2 (fun f f' => s_name f = s_name f' /\ s_label f = s_label f' /\ s_opts f = s_opts f') (sall bs) (sall bs')).
    { unfold sall. induction H as [|b b' l l' H _ IH]; cbn [flat_map]; [constructor|]. apply Forall2_app; auto.
      induction H as [|f f' m m' (H1 & H2 & H3 & H4) _ IHf]; constructor; auto. }
    clear H. intros H. revert HS. generalize (sall bs') as l'. induction H as [|o f os l HM _ IH]; intros l' HS; inversion HS as [|? f' ? m' (E1 & E2 & E3) HS']; subst; constructor; auto.
    destruct HM as (o1 & i & Em & Ho). exists o1, i. split; [|exact Ho]. unfold make in *. rewrite <- E1, <- E2, <- E3. exact Em.
  Qed.
  Lemma refits_nth (locs locs' : list (list (sblock T))) : Forall2 Refitted locs locs' -> forall k, Refitted (nth k locs []) (nth k locs' []).
  Proof. induction 1 as [|l l' ls ls' H _ IH]; intros [|k]; cbn [nth]; auto; constructor. Qed.
  Lemma refits_shape (locs locs' : list (list (sblock T))) : Forall2 Refitted locs locs' -> Forall2 same_shape locs locs'.
  Proof. induction 1; constructor; auto using refit_shape. Qed.
End Same.
Lemma refit_move (h : sblock R -> R * R) (bs bs' : list (sblock R)) : Refitted bs bs' ->
  Refitted bs (map (fun b => mkSblock (fst (h b)) (snd (h b)) (s_funcs b)) bs').
Proof. unfold Refitted. induction 1; cbn [map]; constructor; auto. Qed.
Lemma refit_seen im (bs bs' : list (sblock R)) : Refitted bs bs' -> Refitted bs (seen_in im bs').
Proof. intros H. unfold seen_in. destruct bs' as [|b0 l]; auto. exact (refit_move (fun b => place _ _ _ _ (s_x b0) (s_y b0) (s_x b) (s_y b)) H). Qed.
Lemma refit_view imgs (bs bs' : list (sblock R)) locs locs' k : Refitted bs bs' -> Forall2 Refitted locs locs' ->
  k < S (List.length imgs) -> Refitted (bs ++ nth k locs []) (snd (view imgs bs' locs' k)).
Proof.
  intros H HL Hk. unfold view. destruct k as [|k].
  - cbn [snd]. apply refit_app; auto. exact (refits_nth HL 0).
  - destruct (nth_error imgs k) as [im|] eqn:E; [|apply nth_error_None in E; lia]. cbn [snd].
    apply refit_app; [now apply refit_seen|]. exact (refits_nth HL (S k)).
Qed.

(** ---- one file ---- *)
Section One.
  Variable T : Type.
  Variable N : Num T.
  Variable toR : T -> R.
  Variable finite : T -> Prop.
  Variable f4 g g5 : T -> text.
  Hypothesis PF : PrintfOK toR finite f4 g g5.

  Definition file_text (header : list str) (file : str) (ss : list str) : str :=
    concat (map (fun h => c_str h ++ NL) header) ++ NL ++ lit "# MODEL PARAMETERS FOR DATA IMAGE: " ++ c_str file ++ NL ++ concat (map c_str ss).

  Lemma one_lines os bs offX offY header file : GoodModel bs -> AllFinite finite (nadd N) offX offY bs ->
    Forall2 MadeBy os (sall bs) -> Forall Comment header -> OneLine file ->
    let m := mkBuilt os (flag_list (map as_blk bs)) (param_names bs) (List.length (param_names bs)) in
    exists ss, PrintModelParamsToStrings N f4 g g5 m offX offY (sflat bs) None [] false [] [] = Ok (0%Z, ss) /\
      FileSaysL (config_linesL [] (map (desc_b N f4 g offX offY) bs)) (file_lines (file_text header file ss)).
  Proof.
    intros HG HFin H2 HH HR m.
    destruct (@print_all T N toR finite f4 g g5 PF [] os bs offX offY None) as (ss & E & (bodies & -> & HO & HS)); auto.
    { split; [constructor|cbn; lia]. }
    fold m in E. eexists. split; [exact E|].
    assert (HHO : Forall OneLine header) by (eapply Forall_impl; [|exact HH]; intros h Hh; apply (Comment_ign Hh)).
    assert (Ec : map c_str (map (fun b => [] ++ b ++ NL) bodies) = map (fun b => b ++ NL) (map (app []) bodies)).
    { rewrite !map_map. apply map_ext_in. intros b Hb. cbn [app]. rewrite Forall_forall in HO. apply c_str_id. apply NoNul_app; [apply OneLine_NoNul; auto|exact NoNul_NL]. }
    unfold file_text. rewrite Ec.
    assert (Eh : map (fun h => c_str h ++ NL) header = map (fun b => b ++ NL) header).
    { apply map_ext_in. intros h Hh. rewrite c_str_id; auto. apply OneLine_NoNul. rewrite Forall_forall in HHO. auto. }
    rewrite Eh, (c_str_id (OneLine_NoNul HR)).
    set (L := header ++ [[]; lit "# MODEL PARAMETERS FOR DATA IMAGE: " ++ file] ++ map (app []) bodies).
    match goal with |- context [file_lines ?t] => assert (EL : t = concat (map (fun b => b ++ NL) L)) end.
    { unfold L. rewrite !map_app, !concat_app. cbn [map concat]. rewrite <- !app_assoc. reflexivity. }
    rewrite EL.
    assert (OF : OneLine (lit "# MODEL PARAMETERS FOR DATA IMAGE: " ++ file)) by (apply OneLine_app; auto; apply OneLine_lit; reflexivity).
    rewrite file_lines_concat.
    2:{ unfold L. apply Forall_app. split; auto. apply Forall_app. split.
        - constructor; [constructor|]. constructor; [exact OF|constructor].
        - rewrite map_id. exact HO. }
    unfold L, config_linesL. cbn [map]. rewrite app_assoc.
    apply (@FileSaysL_app [] _ (flat_map block_linesL (map (desc_b N f4 g offX offY) bs))).
    - apply Ignorable_says. apply Forall_app. split.
      + eapply Forall_impl; [|exact HH]. intros h Hh. apply (Comment_ign Hh).
      + constructor; [exists [], []; repeat split; auto|]. constructor; [|constructor].
        eexists [], _. split; [reflexivity|]. split; [constructor|]. right. eexists. reflexivity.
    - rewrite map_id. exact HS.
  Qed.

  Lemma says_back strtod IsNumeric bs offX offY ls : AcceptsDecimals IsNumeric -> GoodModel bs -> AllFinite finite (nadd N) offX offY bs ->
    FileSaysL (config_linesL [] (map (desc_b N f4 g offX offY) bs)) ls ->
    exists out, ReadConfigFile_full N strtod IsNumeric ls true [] = Ok (0%Z, Some (out, [])) /\
      ReadBack toR (nadd N) (nofZ N 0) strtod offX offY bs out.
  Proof.
    intros HA HG HFin HS.
    destruct HG as (Hne & Hb & HGf).
    assert (HSz : Forall Sized (sall bs)) by (eapply Forall_impl; [|exact HGf]; cbn; tauto).
    assert (HNe : all_funcsL (map (desc_b N f4 g offX offY) bs) <> []).
    { rewrite desc_funcs. destruct bs as [|b bs]; [congruence|]. inversion Hb; subst. unfold sall. cbn [flat_map].
      destruct (s_funcs b); [congruence|discriminate]. }
    assert (HNb : map (desc_b N f4 g offX offY) bs <> []) by (destruct bs; [congruence|discriminate]).
    assert (Hnum : forall p, In p (shown (nadd N) offX offY bs) -> exists r, Decimal (numeral f4 g p) r /\
       (if snd p then Rabs (r - toR (fst p)) <= 5 / 100000 else Rabs (r - toR (fst p)) <= 5 / 1000000 * Rabs (toR (fst p)))%R).
    { intros p Hp. unfold AllFinite in HFin. rewrite Forall_forall in HFin. specialize (HFin p Hp). unfold numeral.
      destruct (snd p); [exact (@f4_value _ _ _ _ _ _ PF _ HFin)|exact (@g_value _ _ _ _ _ _ PF _ HFin)]. }
    assert (RB : forall out, ReadsTo N strtod (map (desc_b N f4 g offX offY) bs) out -> ReadBack toR (nadd N) (nofZ N 0) strtod offX offY bs out).
    { intros out (A1 & A2 & A3 & A4 & A5 & A6 & A7). rewrite desc_funcs in *. rewrite (desc_params N f4 g offX offY HSz) in *.
      split; [|split; [|split; [|split; [|split; [|split]]]]].
      - rewrite A1, map_map. reflexivity.
      - rewrite A2, map_map. reflexivity.
      - rewrite A5. apply desc_starts.
      - rewrite A3, map_map. cbn [fst]. apply Forall2_map_l. intros p Hp. destruct (Hnum p Hp) as (r & D & B). exists (numeral f4 g p), r. auto.
      - rewrite A7, map_map. rewrite <- (map_id (sall bs)) at 2. apply Forall2_map_map. intros f Hf.
        assert (HO : NoDup (map fst (kept f))).
        { apply kept_nodup. rewrite Forall_forall in HGf. destruct (HGf f Hf) as (_ & _ & HO & _). exact HO. }
        rewrite desc_opts, set_opts_new.
        + cbn [app]. split; [apply sorted_nodup, in_order_sorted; exact HO|]. intros k. apply map_get_in_order. exact HO.
        + cbn [app]. apply sorted_nodup, in_order_sorted. exact HO.
      - rewrite A6. generalize (shown (nadd N) offX offY bs). intros l. induction l as [|a l IH]; [reflexivity|]. cbn [map existsb snd found]. exact IH.
      - rewrite A4, map_map. cbn [snd entry]. rewrite <- (shown_length N offX offY bs). generalize (shown (nadd N) offX offY bs). intros l. induction l as [|a l IH]; [reflexivity|]. cbn [map List.length repeat]. rewrite IH. reflexivity. }
    destruct (@round_tripL T N strtod IsNumeric [] (map (desc_b N f4 g offX offY) bs) ls HS HNb HNe) as [(o1 & E1 & R1) HL].
    { rewrite (desc_params N f4 g offX offY HSz), map_map. cbn [fst snd]. apply Forall_map. apply Forall_forall. intros p Hp.
      destruct (Hnum p Hp) as (r & D & _). split; [exact (HA _ _ D)|exact I]. }
    exists o1; auto.
  Qed.
End One.

(** ---- all files ---- *)
Section All.
  Variable finite : R -> Prop.
  Variable f4 g g5 : R -> text.
  Variable dec : nat -> str.
  Hypothesis PF : PrintfOK (fun r => r) finite f4 g g5.
  Variables (bs : list (sblock R)) (imgs : list (imgpar R)) (locs : list (list (sblock R))) (infos : list (ImageInfo R)) (psfs : list (option (Z * Z))).
  Hypothesis HI : Images bs imgs locs infos.
  Hypothesis HL : List.length psfs = List.length infos.
  Variables (imgs' : list (imgpar R)) (bs' : list (sblock R)) (locs' : list (list (sblock R))).
  Hypothesis Li : List.length imgs' = List.length imgs.
  Hypothesis Rb : Refitted bs bs'.
  Hypothesis Rl : Forall2 Refitted locs locs'.

  Lemma view_built ms k m : Forall2 (@Built R bs) ms (combine psfs locs) -> nth_error ms k = Some m -> k < List.length infos ->
    let w := snd (view imgs' bs' locs' k) in
    exists os, m = mkBuilt os (flag_list (map as_blk w)) (param_names w) (List.length (param_names w)) /\ Forall2 MadeBy os (sall w).
  Proof.
    intros HB Hm Hk w.
    assert (Ll : List.length locs = List.length infos) by exact (Forall2_len (im_locals HI)).
    assert (E : exists ps, nth_error (combine psfs locs) k = Some (ps, nth k locs [])).
    { assert (Hp : k < List.length psfs) by lia. destruct (nth_error psfs k) as [ps|] eqn:Ep; [|apply nth_error_None in Ep; lia]. exists ps.
      assert (Hl : nth_error locs k = Some (nth k locs [])) by (apply nth_error_nth'; lia). clear -Ep Hl. revert psfs locs Ep Hl.
      induction k as [|k IH]; intros [|p ps'] [|l ls] Ep Hl; try discriminate; cbn in *; [injection Ep as ->; reflexivity|]. apply IH; auto. }
    destruct E as (ps & Ec).
    assert (HBk : Built bs m (ps, nth k locs [])).
    { clear -HB Hm Ec. revert Ec. generalize (nth k locs []). intros l Ec. revert k Hm Ec.
      induction HB as [|x y xs ys H HB IH]; intros [|k] Hm Ec; cbn in *; try discriminate; [injection Hm as ->; injection Ec as ->; exact H|eauto]. }
    destruct HBk as (os & Em & HM). cbn [snd] in *.
    assert (RV : Refitted (bs ++ nth k locs []) w) by (apply refit_view; auto; pose proof (im_count HI); lia).
    pose proof (refit_shape RV) as SV. exists os. split; [|exact (refit_made RV HM)].
    rewrite <- (shape_flags SV), <- (shape_names SV). exact Em.
  Qed.

  Definition file_name (root : str) (k : nat) : str :=
    match k with O => root ++ lit "_refimage.dat" | S _ => root ++ lit "_image" ++ dec (k + 1) ++ lit ".dat" end.

  Lemma files_saved ms j bufs offs files root header strtod IsNumeric :
    Forall2 (@Built R bs) ms (combine psfs locs) -> j_images j = ms -> List.length ms = List.length locs ->
    (forall k buf, k < List.length locs' ->
             List.length buf = List.length (sflat bs') + List.length (sflat (nth k locs' [])) ->
             for_image_i NumR j (joint_vector imgs' bs' locs') k buf = Ok (fst (view imgs' bs' locs' k), sflat (snd (view imgs' bs' locs' k)))) ->
    Forall2 (fun buf loc => List.length buf = List.length (sflat bs') + List.length (sflat loc)) bufs locs' ->
    List.length offs = List.length infos -> List.length files = List.length infos -> Forall OneLine files -> Forall Comment header ->
    AcceptsDecimals IsNumeric -> c_str root = root -> (forall k, k < List.length infos -> List.length (file_name root k) < 1024) ->
    (forall k, k < List.length infos -> GoodModel (snd (view imgs' bs' locs' k)) /\
       AllFinite finite Rplus (IZR (fst (nth k offs (0, 0)%Z))) (IZR (snd (nth k offs (0, 0)%Z))) (snd (view imgs' bs' locs' k))) ->
    exists out, SaveMultImageParameters NumR f4 g g5 dec j offs files (joint_vector imgs' bs' locs') bufs root header = Ok out /\
      List.length out = List.length infos /\
      forall k name txt, nth_error out k = Some (name, txt) -> name = file_name root k /\
        exists po, ReadConfigFile_full NumR strtod IsNumeric (file_lines txt) true [] = Ok (0%Z, Some (po, [])) /\
          ReadBack (fun r => r) Rplus 0%R strtod (IZR (fst (nth k offs (0, 0)%Z))) (IZR (snd (nth k offs (0, 0)%Z))) (snd (view imgs' bs' locs' k)) po.
  Proof.
    intros HB Ej Lm S HBuf Lo Lf HO HH HA Hroot Hname HGF.
    assert (Ll : List.length locs = List.length infos) by exact (Forall2_len (im_locals HI)).
    assert (Ll' : List.length locs' = List.length infos) by (rewrite <- (Forall2_len Rl); exact Ll).
    unfold SaveMultImageParameters. rewrite Ej, Lm, Ll, Hroot.
    match goal with |- context [for_ ?m ?f ?s0] => destruct (@for_inv (list (str * str)) (fun i st => List.length st = i /\
      forall k name txt, nth_error st k = Some (name, txt) -> name = file_name root k /\
        exists po, ReadConfigFile_full NumR strtod IsNumeric (file_lines txt) true [] = Ok (0%Z, Some (po, [])) /\
          ReadBack (fun r => r) Rplus 0%R strtod (IZR (fst (nth k offs (0, 0)%Z))) (IZR (snd (nth k offs (0, 0)%Z))) (snd (view imgs' bs' locs' k)) po) f m s0) as (w & E & P) end.
    - split; [reflexivity|]. intros [|k]; discriminate.
    - intros k st Hk (Ls & Hst).
      assert (En : (if (k =? 0)%nat then PrintToString (root ++ lit "_refimage.dat") else PrintToString (root ++ lit "_image" ++ dec (k + 1) ++ lit ".dat")) = Ok (file_name root k)).
      { specialize (Hname k Hk). destruct k as [|k]; cbn [Nat.eqb file_name] in *; now rewrite print_short. }
      rewrite En. cbn [bind].
      destruct (@get_lt _ files k) as (file & Ef); [lia|]. rewrite Ef. cbn [bind].
      destruct (@buf_at bs' locs' bufs k) as (buf & Eb & Lb); [exact HBuf|lia|]. rewrite Eb. cbn [bind].
      unfold GetParameterStringsForOneImage. rewrite (S k buf) by (auto; lia). cbn [bind snd].
      destruct (@get_lt _ ms k) as (m & Em); [lia|]. rewrite Ej, Em. cbn [bind].
      destruct (@get_lt _ offs k) as (o & Eo); [lia|]. rewrite Eo. cbn [bind option_map].
      assert (Enth : nth k offs (0, 0)%Z = o) by (apply get_Ok_iff in Eo; apply nth_error_nth; exact Eo).
      destruct (HGF k Hk) as (HG & HFn). rewrite Enth in HFn.
      apply get_Ok_iff in Em. destruct (view_built HB Em Hk) as (os & -> & HM).
      assert (Of : OneLine file) by (apply get_Ok_iff in Ef; rewrite Forall_forall in HO; apply HO; eapply nth_error_In; eauto).
      destruct (@one_lines R NumR (fun r => r) finite f4 g g5 PF os (snd (view imgs' bs' locs' k)) (IZR (fst o)) (IZR (snd o)) header file HG HFn HM HH Of) as (ss & Ess & HS).
      cbn [nofZ NumR] in *. rewrite Ess. cbn [bind snd]. eexists. split; [reflexivity|]. split; [rewrite app_length, Ls; cbn; lia|].
      intros k' name txt Hn. destruct (Nat.lt_ge_cases k' (List.length st)) as [Hlt|Hge].
      + rewrite nth_error_app1 in Hn by exact Hlt. exact (Hst _ _ _ Hn).
      + rewrite nth_error_app2 in Hn by exact Hge. destruct (k' - List.length st) as [|q] eqn:Eq; [|destruct q; discriminate].
        assert (k' = k) by lia. subst k'. cbn [nth_error] in Hn. injection Hn as Hn1 Hn2. split; [auto|]. subst txt. rewrite Enth.
        exact (@says_back R NumR (fun r => r) finite f4 g g5 PF strtod IsNumeric (snd (view imgs' bs' locs' k)) (IZR (fst o)) (IZR (snd o)) _ HA HG HFn HS).
    - rewrite E. exists w. split; [reflexivity|]. exact P.
  Qed.
End All.
