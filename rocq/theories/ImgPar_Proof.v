(** Proofs about ImgPar_Model. *)
From Coq Require Import Ascii String List ZArith Lia Arith.
From Verif Require Import Config_Model StrUtil_Spec StrUtil_Proof Config_Spec Config_Proof ImgPar_Model ImgPar_Spec.
Set Implicit Arguments. Unset Strict Implicit.
Local Open Scope list_scope.

(** ---- trimming keeps what a line says ---- *)
Lemma Tokens_first D s w ws : Tokens D s (w :: ws) -> exists g r, s = g ++ w ++ r /\ only D g /\ w <> [] /\ only (fun c => ~ D c) w.
Proof. intros H. inversion H; subst; [exists g, []; now rewrite app_nil_r|exists g, (c :: r); auto]. Qed.
Lemma Tokens_Kw k s ws : Tokens Blank s (list_ascii_of_string k :: ws) -> Kw k s.
Proof. intros H. apply Tokens_first in H. destruct H as (g & r & -> & _). exists g, r. reflexivity. Qed.

(** [Trims l t]: [t] is [l] between blanks *)
Definition Trims (l t : str) : Prop := exists a h, l = a ++ t ++ h /\ Forall Blank a /\ Forall Blank h.
Lemma Trims_notKw k l t : Trims l t -> ~ Kw k l -> ~ Kw k t.
Proof. intros (a & h & -> & _) H. eapply not_Kw_infix; eauto. Qed.
Lemma Trims_Tokens l t ws : Trims l t -> Tokens Blank l ws -> Tokens Blank t ws.
Proof. intros (a & h & -> & Ha & Hh) H. exact (@Tokens_strip a h t ws Ha Hh H). Qed.
Lemma TrimW l t : TrimWhitespace l = Ok t -> t <> [] -> Trims l t.
Proof.
  intros E Ht. destruct (TrimWhitespace_ok l) as (t' & (g & h & El & Hg & Hh & _) & E').
  rewrite E in E'. apply Ok_inj in E'. destruct (List.length t' =? 1); subst; [congruence|].
  exists g, h. split; auto. split; now apply only_blank.
Qed.

Lemma trim_kw l k ws c0 c1 kr : list_ascii_of_string k = c0 :: c1 :: kr -> c0 <> hash ->
  Tokens Blank l (list_ascii_of_string k :: ws) ->
  exists t c r, TrimWhitespace l = Ok t /\ Trims l t /\ Tokens Blank t (list_ascii_of_string k :: ws) /\
              t = c :: r /\ c <> hash.
Proof.
  intros Ek Hc H. destruct (TrimWhitespace_ok l) as (t & (g & h & El & Hg & Hh & K) & E).
  apply only_blank in Hg, Hh. subst l.
  assert (Tt : Tokens Blank t (list_ascii_of_string k :: ws)) by (exact (@Tokens_strip g h t _ Hg Hh H)).
  destruct (Tokens_first Tt) as (g' & r & Et & Hg' & _ & Hw).
  assert (L : List.length t <> 1).
  { intros L. rewrite Et, Ek in L. rewrite !app_length in L. simpl in L. lia. }
  apply Nat.eqb_neq in L. rewrite L in E.
  destruct K as [->|[(t0 & t' & Et' & Nt0) _]].
  { exfalso. rewrite Ek in Et. destruct g'; discriminate Et. }
  exists t, t0, t'. split; auto. split; [exists g, h; auto|]. split; auto. split; auto.
  destruct g' as [|x g'].
  - rewrite Ek in Et. rewrite Et' in Et. simpl in Et. inversion Et; subst. auto.
  - exfalso. rewrite Et' in Et. inversion Et; subst. inversion Hg'; subst. apply Nt0. now apply blank_Blank.
Qed.

Lemma trim_words2 l ws : Words l ws -> 2 <= List.length ws ->
  exists t c r, TrimWhitespace l = Ok t /\ Trims l t /\ Words t ws /\ t = c :: r /\ c <> hash.
Proof.
  intros H L. destruct (trim_words H L) as (a & t & h & E & ET & HW & c & r & -> & Hc).
  exists (c :: r), c, r. split; auto. split; [apply TrimW; auto; discriminate|]. auto.
Qed.
Lemma entry_words_len e : 2 <= List.length (entry_words e).
Proof. destruct e; simpl; lia. Qed.

Lemma saysI_trim d l : SaysI d l -> exists t c r, TrimWhitespace l = Ok t /\ SaysI d t /\ t = c :: r /\ c <> hash.
Proof.
  destruct d as [|e| |d]; cbn [SaysI].
  - intros (HK & ws & HT).
    destruct (@trim_kw l "IMAGE_START" ws _ _ _ eq_refl ltac:(discriminate) HT) as (t & c & r & E & HTr & HT' & Et & Hc).
    exists t, c, r. split; auto. split; [|auto]. split; [eapply Trims_notKw; eauto|eauto].
  - intros (K1 & K2 & HW & com & HT & HC).
    destruct (trim_words2 HW (entry_words_len e)) as (t & c & r & E & HTr & HW' & Et & Hc).
    exists t, c, r. split; auto. split; [|auto]. split; [eapply Trims_notKw; eauto|]. split; [eapply Trims_notKw; eauto|].
    split; auto. exists com. split; auto. eapply Trims_Tokens; eauto.
  - intros (HK & ws & HT).
    destruct (@trim_kw l "FUNCTIONS_START" ws _ _ _ eq_refl ltac:(discriminate) HT) as (t & c & r & E & HTr & HT' & Et & Hc).
    exists t, c, r. split; auto. split; [|auto]. split; [eapply Trims_notKw; eauto|eauto].
  - intros (K1 & K2 & HS). destruct (says_trim HS) as (t & E & HS' & c & r & -> & Hc).
    assert (HTr : Trims l (c :: r)) by (apply TrimW; auto; discriminate).
    exists (c :: r), c, r. split; auto. split; [|auto]. repeat split; try (eapply Trims_notKw; eauto); apply HS'.
Qed.

Lemma keep_saysI ds file : FileSaysI ds file -> forall k, exists ls nums,
  keep_lines k file = Ok (ls, nums) /\ Forall2 SaysI ds ls.
Proof.
  induction 1 as [|l ds ls HI HF IH|d l ds ls HS HF IH]; intros k; cbn [keep_lines].
  - eexists _, _. split; [reflexivity|constructor].
  - destruct (trim_ignorable HI) as (t & -> & Ht). cbn [bind].
    destruct (IH (k + 1)%Z) as (ls' & nums & -> & F). cbn [bind].
    destruct Ht as [->|(r & ->)]; eauto.
    rewrite ch_eqb_refl. eauto.
  - destruct (saysI_trim HS) as (t & c & r & -> & HS' & -> & Hc). cbn [bind].
    destruct (IH (k + 1)%Z) as (ls' & nums & -> & F). cbn [bind].
    rewrite ch_eqb_false by auto. cbn [fst snd].
    eexists _, _. split; [reflexivity|]. constructor; auto.
Qed.

(** ---- vetting ---- *)
Lemma valid_opt_words isn l : exists b, ChopComment l hash = Ok b /\
  exists v, ValidParameterLine isn l true = Ok (v, b) /\
            (v = true <-> exists ws, Words l ws /\ 2 <= List.length ws).
Proof.
  destruct (chop_total l hash) as (b & rest & E & _). exists b. split; auto.
  unfold ValidParameterLine. rewrite E. cbn [bind].
  destruct (Tokens_exist b) as (ws & HT). 
  assert (HW : Words l ws) by (exists b; split; auto; now apply Body_chop).
  assert (Uniq : forall ws', Words l ws' -> ws' = ws).
  { intros ws' (b' & HB & HT'). apply Body_chop in HB. rewrite E in HB. apply Ok_inj in HB. subst b'.
    exact (Tokens_unique _ _ _ HT' _ HT). }
  destruct (le_lt_dec 2 (List.length ws)) as [L|L].
  - rewrite (split_words HT L). cbn [bind]. apply Nat.leb_le in L. rewrite L. exists true. split; auto.
    apply Nat.leb_le in L. split; eauto.
  - assert (HS : exists ps, SplitString b ws_delims = Ok ps /\ List.length ps < 2).
    { destruct (find_first_of b ws_delims (find_first_not_of b ws_delims (Some 0))) eqn:F.
      - destruct (proj1 (SplitString_ok ws_delims b)) as (toks & Es & Ht).
        { apply later_delim_iff. congruence. }
        exists toks. split; auto. rewrite (Tokens_unique _ _ _ Ht _ HT). exact L.
      - exists [b]. split; [|simpl; lia]. apply (proj2 (SplitString_ok ws_delims b)).
        rewrite later_delim_iff. intros H. apply H. exact F. }
    destruct HS as (ps & -> & Lp). cbn [bind].
    assert (El : (2 <=? List.length ps) = false) by (apply Nat.leb_gt; exact Lp). rewrite El.
    exists false. split; auto. split; [discriminate|]. intros (ws' & HW' & L'). rewrite (Uniq _ HW') in L'. lia.
Qed.

Lemma vet_loop_ok isn ls : forall i nums pre, i = List.length pre -> List.length nums = List.length (pre ++ ls) ->
  exists bad, vet_loop isn ls i nums = Ok bad /\ BadLines ls (skipn i nums) bad.
Proof.
  induction ls as [|l ls IH]; intros i nums pre Hi HL; cbn [vet_loop].
  - exists []. split; auto. rewrite skipn_all2; [constructor|]. rewrite HL, app_nil_r. lia.
  - assert (Hn : i < List.length nums) by (rewrite HL, app_length; simpl; lia).
    destruct (@get_lt _ nums _ Hn) as (n & En).
    assert (Es : skipn i nums = n :: skipn (S i) nums).
    { apply get_Ok_iff in En. clear - En. revert nums En. induction i as [|i IHi]; intros nums En; destruct nums; simpl in *; try discriminate.
      - now inversion En. - now apply IHi. }
    destruct (IH (S i) nums (pre ++ [l])) as (bad & Eb & HB).
    { rewrite app_length; simpl; lia. }
    { rewrite <- app_assoc. exact HL. }
    rewrite Es.
    destruct (has "IMAGE_START" l) eqn:H1.
    { exists bad. split; auto. constructor; auto. left. now apply has_true. }
    destruct (has "FUNCTIONS_START" l) eqn:H2; cbn [negb].
    { exists bad. split; auto. constructor; auto. right; left. now apply has_true. }
    destruct (valid_opt_words isn l) as (b & _ & v & -> & HV). cbn [bind fst].
    destruct v; cbn [negb].
    + exists bad. split; auto. constructor; auto. right; right. now apply HV.
    + rewrite En, Eb. cbn [bind]. exists (n :: bad). split; auto. apply BL_bad; auto.
      intros [A|[A|A]].
      * apply has_true in A. congruence.
      * apply has_true in A. congruence.
      * apply HV in A. discriminate.
Qed.

Lemma vet_spec isn ls nums : List.length nums = List.length ls -> ls <> [] ->
  exists bad errs, VetInputLines isn ls nums = Ok (Nat.eqb (List.length errs) 0, errs) /\
    BadLines ls nums bad /\
    errs = map (fun k => (IMAGEPARAMS_FILE_ERROR_BADLINE, k)) bad ++
           (if existsb (has "IMAGE_START") ls then [] else [(IMAGEPARAMS_FILE_ERROR_NOIMAGESTART, 0%Z)]).
Proof.
  intros HL Hne. destruct (@vet_loop_ok isn ls 0 nums [] eq_refl HL) as (bad & E & HB).
  unfold VetInputLines. destruct ls as [|l ls]; [congruence|]. destruct nums as [|n nums]; [discriminate HL|].
  rewrite E. cbn [bind]. eexists bad, _. split; [reflexivity|]. split; auto.
Qed.

Lemma BadLines_all ls nums bad : BadLines ls nums bad -> Forall Acceptable ls -> bad = [].
Proof. induction 1; intros F; inversion F; subst; auto. contradiction. Qed.
Lemma BadLines_in ls nums bad : BadLines ls nums bad -> forall n, In n bad -> In n nums.
Proof. induction 1; intros m Hm; simpl in *; auto. destruct Hm as [->|Hm]; auto. Qed.

Lemma SaysI_acceptable d l : SaysI d l -> Acceptable l.
Proof.
  destruct d as [|e| |d]; cbn [SaysI].
  - intros (_ & ws & HT). left. eapply Tokens_Kw; eauto.
  - intros (_ & _ & HW & _). right; right. exists (entry_words e). split; auto. apply entry_words_len.
  - intros (_ & ws & HT). right; left. eapply Tokens_Kw; eauto.
  - intros (_ & _ & HW & _). right; right. exists (words_of d). split; auto. apply words_of_len.
Qed.

(** ---- sections ---- *)
Lemma sections_body body rest : Forall (fun l => has "IMAGE_START" l = false) body ->
  sections (body ++ rest) = (body ++ fst (sections rest), snd (sections rest)).
Proof.
  induction 1 as [|l body Hl HF IH]; cbn [app sections].
  - now destruct (sections rest).
  - rewrite IH, Hl. reflexivity.
Qed.
Lemma sections_start l rest : has "IMAGE_START" l = true ->
  sections (l :: rest) = ([], (l :: fst (sections rest)) :: snd (sections rest)).
Proof. intros H. cbn [sections]. rewrite H. now destruct (sections rest). Qed.

Lemma img_section im ls : Forall2 SaysI (img_lines im) ls -> exists l body, ls = l :: body /\ has "IMAGE_START" l = true /\ Forall (fun l => has "IMAGE_START" l = false) body.
Proof.
  intros H. unfold img_lines in H. inversion H as [|d l ds body HS HF]; subst. exists l, body. split; auto.
  destruct HS as (_ & ws & HT). split; [apply has_true; eapply Tokens_Kw; eauto|].
  assert (NS : Forall (fun d => d <> IStart) (map IEntry (im_entries im) ++
    match im_funcs im with None => [] | Some bs => IFuncs :: map IFun (flat_map block_lines bs) end)).
  { apply Forall_app. split.
    - apply Forall_map, Forall_forall. discriminate.
    - destruct (im_funcs im); constructor; [discriminate|]. apply Forall_map, Forall_forall. discriminate. }
  clear - HF NS. revert NS HF. generalize (map IEntry (im_entries im) ++
    match im_funcs im with None => [] | Some bs => IFuncs :: map IFun (flat_map block_lines bs) end).
  intros ds NS HF. induction HF as [|d l ds ls HS HF IH]; constructor; inversion NS; subst; auto.
  apply has_false. destruct d; cbn [SaysI] in HS; try tauto; congruence.
Qed.

Lemma sections_imgs ims : forall ls, Forall2 SaysI (flat_map img_lines ims) ls ->
  exists secs, sections ls = ([], secs) /\ Forall2 (fun im s => Forall2 SaysI (img_lines im) s) ims secs.
Proof.
  induction ims as [|im ims IH]; intros ls H; cbn [flat_map] in H.
  - inversion H; subst. exists []. split; auto.
  - apply Forall2_app_l in H. destruct H as (s & rest & -> & H1 & H2).
    destruct (IH rest H2) as (secs & E & F). destruct (img_section H1) as (l & body & -> & Hl & Hb).
    exists ((l :: body) :: secs). split; [|constructor; auto].
    cbn [app]. rewrite sections_start by auto. rewrite sections_body by auto. rewrite E. cbn [fst snd].
    now rewrite app_nil_r.
Qed.

Lemma Forall2_length {A B} (R : A -> B -> Prop) l m : Forall2 R l m -> List.length l = List.length m.
Proof. induction 1; simpl; congruence. Qed.

(** ---- one line ---- *)
Lemma same_text_named k n : same_text k (list_ascii_of_string n) = named k n.
Proof.
  unfold same_text, named, lit. destruct (list_eq_dec ascii_dec k (list_ascii_of_string n)) as [->|H].
  - symmetry. apply str_eqb_refl.
  - destruct (str_eqb k (list_ascii_of_string n)) eqn:E; auto. apply str_eqb_true in E. contradiction.
Qed.
Lemma last_snoc {A} (d : A) f es e : last_said d f (es ++ [e]) = match f e with Some v => v | None => last_said d f es end.
Proof. unfold last_said. now rewrite fold_left_app. Qed.
Lemma all_snoc {A} (f : ientry -> option A) es e :
  all_said f (es ++ [e]) = match f e with Some v => all_said f es ++ [v] | None => all_said f es end.
Proof. unfold all_said. rewrite flat_map_app. cbn [flat_map]. rewrite app_nil_r. destruct (f e); auto using app_nil_r. Qed.
Lemma last_none {A B} (d : A) (g : ientry -> option B) f es :
  (forall e, g e = None -> f e = None) -> all_said g es = [] -> last_said d f es = d.
Proof.
  intros H. unfold last_said, all_said. revert d. induction es as [|e es IH]; intros d E; cbn [fold_left flat_map] in *; auto.
  apply app_eq_nil in E. destruct E as [E1 E2]. rewrite H by (destruct (g e); [discriminate|auto]). now apply IH.
Qed.

Section Store.
  Variable T : Type.
  Variable N : Num T.
  Variable strtod : str -> T.
  Variable strtol : str -> Z.
  Notation Store := (StoreInfoFromLine N strtod strtol).
  Notation described := (described N strtod strtol).
  Notation entry := (entry N strtod).

  Definition status_of (l : limits_) : Z := match l with LNone => 0%Z | LFixed => 1%Z | LRange _ _ => 2%Z end.

  Lemma get_par l k v lm com : Tokens Blank l (k :: v :: limit_words lm ++ com) -> GoodLimits N strtod v lm ->
    match lm, com with
    | LNone, w :: _ => Forall (fun c => c <> ascii_of_nat 44) w /\ w <> list_ascii_of_string "fixed"
    | _, _ => True
    end ->
    GetParameterAndLimits N strtod l = Ok (strtod v, entry lm, status_of lm).
  Proof.
    intros HT HG HC. unfold GetParameterAndLimits. rewrite (split_words HT) by (simpl; lia). cbn [bind].
    unfold get at 1. cbn [nth_error bind]. destruct lm as [| |lo hi].
    - destruct com as [|w com]; [reflexivity|]. cbn [limit_words app List.length Nat.ltb Nat.leb].
      unfold get. cbn [nth_error bind]. destruct HC as [HC HF].
      destruct (str_eqb w kw_fixed) eqn:E; [apply str_eqb_true in E; contradiction|].
      assert (Ef : find_char w comma (Some 0) = None).
      { unfold find_char. apply (@find_p_none _ w []). eapply Forall_impl; [|exact HC].
        intros c Hc. cbv beta in *. first [apply ch_eqb_false; exact Hc | apply ch_eqb_false; intros X; apply Hc; now symmetry]. }
      rewrite Ef. reflexivity.
    - reflexivity.
    - destruct HG as (_ & N1 & N2 & I1 & I2 & F1 & F2 & C1 & C2 & C3).
      cbn [limit_words app List.length Nat.ltb Nat.leb]. unfold get at 1. cbn [nth_error bind].
      change (ascii_of_nat 44) with comma. rewrite comma_range.
      assert (Ef : find_char (lo ++ comma :: hi) comma (Some 0) = Some (0 + List.length lo)).
      { apply (@find_char_app lo comma hi []). exact F1. }
      rewrite Ef. rewrite SplitString_two; auto. cbn [bind]. unfold get. cbn [nth_error bind].
      rewrite C1, C2, C3. reflexivity.
  Qed.

  Lemma fixed_none k e : value_of k e = None -> fixed_lims N strtod k e = None.
  Proof. unfold fixed_lims. destruct e; cbn [value_of limits_of]; auto. destruct (same_text _ _); [discriminate|auto]. Qed.
  Lemma once_snoc k es e v : once k (es ++ [e]) -> value_of k e = Some v -> all_said (value_of k) es = [].
  Proof.
    unfold once. intros H E. rewrite all_snoc, E, app_length in H. simpl in H.
    destruct (all_said (value_of k) es); auto. simpl in H. lia.
  Qed.

  (** what one more entry changes *)
  Definition step (e : ientry) (i : ImageInfo T) : ImageInfo T :=
    {| i_dataFile := match file "DATA" e with Some v => v | None => i_dataFile i end;
       i_maskFile := match file "MASK" e with Some v => v | None => i_maskFile i end;
       i_maskBadIsZero := match mask_zero_is_bad e with Some v => v | None => i_maskBadIsZero i end;
       i_errorFile := match file "ERROR" e with Some v => v | None => i_errorFile i end;
       i_errorType := match error_kind e with Some v => v | None => i_errorType i end;
       i_psfFile := match file "PSF" e with Some v => v | None => i_psfFile i end;
       i_weight := match num strtod "WEIGHT" e with Some v => v | None => i_weight i end;
       i_gain := match num strtod "GAIN" e with Some v => v | None => i_gain i end;
       i_readNoise := match num strtod "READNOISE" e with Some v => v | None => i_readNoise i end;
       i_originalSky := match num strtod "ORIGINAL_SKY" e with Some v => v | None => i_originalSky i end;
       i_expTime := match num strtod "EXPTIME" e with Some v => v | None => i_expTime i end;
       i_nCombined := match int strtol "NCOMBINED" e with Some v => v | None => i_nCombined i end;
       i_x0 := match num strtod "X0" e with Some v => v | None => i_x0 i end;
       i_y0 := match num strtod "Y0" e with Some v => v | None => i_y0 i end;
       i_nColumns := match option_map strtol (cols e) with Some v => v | None => i_nColumns i end;
       i_nRows := match option_map strtol (rows e) with Some v => v | None => i_nRows i end;
       i_pixelScale := match num strtod "PIXEL_SCALE" e with Some v => v | None => i_pixelScale i end;
       i_intensityScale := match num strtod "FLUX_SCALE" e with Some v => v | None => i_intensityScale i end;
       i_rotation := match num strtod "IMAGE_PA" e with Some v => v | None => i_rotation i end;
       i_overFiles := match value_of "OVERSAMPLED_PSF" e with Some v => i_overFiles i ++ [v] | None => i_overFiles i end;
       i_overScales := match int strtol "OVERSAMPLE_SCALE" e with Some v => i_overScales i ++ [v] | None => i_overScales i end;
       i_overRegions := match value_of "OVERSAMPLED_REGION" e with Some v => i_overRegions i ++ [v] | None => i_overRegions i end;
       i_perImage := i_perImage i;
       i_pixelScaleLim := match fixed_lims N strtod "PIXEL_SCALE" e with Some v => v | None => i_pixelScaleLim i end;
       i_rotationLim := match fixed_lims N strtod "IMAGE_PA" e with Some v => v | None => i_rotationLim i end;
       i_intensityScaleLim := match lims N strtod "FLUX_SCALE" e with Some v => v | None => i_intensityScaleLim i end;
       i_x0Lim := match lims N strtod "X0" e with Some v => v | None => i_x0Lim i end;
       i_y0Lim := match lims N strtod "Y0" e with Some v => v | None => i_y0Lim i end |}.
  Lemma mkInfo_eq a0 b0 a1 b1 a2 b2 a3 b3 a4 b4 a5 b5 a6 b6 a7 b7 a8 b8 a9 b9 a10 b10 a11 b11 a12 b12 a13 b13 a14 b14 a15 b15 a16 b16 a17 b17 a18 b18 a19 b19 a20 b20 a21 b21 a22 b22 a23 b23 a24 b24 a25 b25 a26 b26 a27 b27 :
    a0 = b0 -> a1 = b1 -> a2 = b2 -> a3 = b3 -> a4 = b4 -> a5 = b5 -> a6 = b6 -> a7 = b7 -> a8 = b8 -> a9 = b9 -> a10 = b10 -> a11 = b11 -> a12 = b12 -> a13 = b13 -> a14 = b14 -> a15 = b15 -> a16 = b16 -> a17 = b17 -> a18 = b18 -> a19 = b19 -> a20 = b20 -> a21 = b21 -> a22 = b22 -> a23 = b23 -> a24 = b24 -> a25 = b25 -> a26 = b26 -> a27 = b27 ->
    @mkInfo T a0 a1 a2 a3 a4 a5 a6 a7 a8 a9 a10 a11 a12 a13 a14 a15 a16 a17 a18 a19 a20 a21 a22 a23 a24 a25 a26 a27 = mkInfo b0 b1 b2 b3 b4 b5 b6 b7 b8 b9 b10 b11 b12 b13 b14 b15 b16 b17 b18 b19 b20 b21 b22 b23 b24 b25 b26 b27.
  Proof. intros. subst. reflexivity. Qed.
  Lemma described_snoc es e : described (es ++ [e]) = step e (described es).
  Proof.
    unfold described, step. cbn [i_dataFile i_maskFile i_maskBadIsZero i_errorFile i_errorType i_psfFile i_weight i_gain i_readNoise i_originalSky i_expTime i_nCombined i_x0 i_y0 i_nColumns i_nRows i_pixelScale i_intensityScale i_rotation i_overFiles i_overScales i_overRegions i_perImage i_pixelScaleLim i_rotationLim i_intensityScaleLim i_x0Lim i_y0Lim].
    apply mkInfo_eq; first [exact (last_snoc _ _ _ _) | exact (all_snoc _ _ _) | reflexivity].
  Qed.

  Lemma store_plain i k v lm l com : Tokens Blank l (k :: v :: limit_words lm ++ com) ->
    GetParameterAndLimits N strtod l = Ok (strtod v, entry lm, status_of lm) ->
    named k "NCOLS,NROWS" = false -> named k "NROWS,NCOLS" = false ->
    (k = lit "PIXEL_SCALE" -> i_pixelScaleLim i = entry LNone) ->
    (k = lit "IMAGE_PA" -> i_rotationLim i = entry LNone) ->
    Store l i = Ok (step (EPlain k v lm) i).
  Proof.
    intros HT HP K1 K2 P1 P2. unfold StoreInfoFromLine.
    rewrite (split_words HT) by (simpl; lia). cbn [bind]. unfold get at 1. cbn [nth_error bind].
    rewrite HP. unfold get. cbn [nth_error bind].
    unfold step, num, int, file, lims, fixed_lims, cols, rows, mask_zero_is_bad, error_kind.
    cbn [value_of limits_of]. rewrite !same_text_named. rewrite K1, K2. clear HP HT.
    repeat match goal with
    | |- (if named k ?n then _ else _) = _ =>
        let E := fresh "E" in destruct (named k n) eqn:E;
        [apply str_eqb_true in E; subst k; cbv [named lit list_ascii_of_string str_eqb ch_eqb eqb andb]; try reflexivity | ]
    end.
    - destruct lm as [| |lo hi]; [| |reflexivity];
        cbn [status_of Z.eqb Pos.eqb option_map set_pixelScale set_pixelScaleLim i_pixelScaleLim];
        rewrite (P1 eq_refl); reflexivity.
    - destruct lm as [| |lo hi]; [| |reflexivity];
        cbn [status_of Z.eqb Pos.eqb option_map set_rotation set_rotationLim i_rotationLim];
        rewrite (P2 eq_refl); reflexivity.
    - destruct i; reflexivity.
  Qed.

  Lemma store_line es e l : SaysI (IEntry e) l -> GoodEntry N strtod e ->
    once "PIXEL_SCALE" (es ++ [e]) -> once "IMAGE_PA" (es ++ [e]) ->
    Store l (described es) = Ok (described (es ++ [e])).
  Proof.
    intros (_ & _ & _ & com & HT & HC) HG O1 O2. rewrite described_snoc.
    destruct e as [k v lm|c r|r c].
    - destruct HG as (HG & G1 & G2).
      assert (R : forall n, k = lit n -> value_of n (EPlain k v lm) = Some v).
      { intros n ->. cbn [value_of]. rewrite same_text_named. unfold named. now rewrite str_eqb_refl. }
      eapply store_plain; [exact HT| | | | |].
      + eapply get_par; [exact HT|exact HG|]. destruct lm; auto.
      + destruct (named k "NCOLS,NROWS") eqn:E; auto. apply str_eqb_true in E. contradiction.
      + destruct (named k "NROWS,NCOLS") eqn:E; auto. apply str_eqb_true in E. contradiction.
      + intros Ek. cbn [i_pixelScaleLim].
        exact (@last_none _ _ (entry LNone) (value_of "PIXEL_SCALE") _ es (@fixed_none "PIXEL_SCALE")
                     (once_snoc O1 (R _ Ek))).
      + intros Ek. cbn [i_rotationLim].
        exact (@last_none _ _ (entry LNone) (value_of "IMAGE_PA") _ es (@fixed_none "IMAGE_PA")
                     (once_snoc O2 (R _ Ek))).
    - destruct HG as (G1 & G2 & G3 & G4). cbn [entry_words app] in HT. generalize (described es). intros i.
      assert (ES : SplitString (pair_word c r) [comma] = Ok [c; r]) by (apply SplitString_two; auto).
      unfold StoreInfoFromLine. rewrite (split_words HT) by (simpl; lia). cbn [bind]. unfold get. cbn [nth_error bind].
      rewrite ES. reflexivity.
    - destruct HG as (G1 & G2 & G3 & G4). cbn [entry_words app] in HT. generalize (described es). intros i.
      assert (ES : SplitString (pair_word r c) [comma] = Ok [r; c]) by (apply SplitString_two; auto).
      unfold StoreInfoFromLine. rewrite (split_words HT) by (simpl; lia). cbn [bind]. unfold get. cbn [nth_error bind].
      rewrite ES. reflexivity.
  Qed.

  (** the lines of an image *)
  Lemma add_entries es : forall done ls k rest, Forall2 SaysI (map IEntry es) ls ->
    Forall (GoodEntry N strtod) es -> once "PIXEL_SCALE" (done ++ es) -> once "IMAGE_PA" (done ++ es) ->
    add_info N strtod strtol (ls ++ rest) k (described done) =
    add_info N strtod strtol rest (k + List.length es) (described (done ++ es)).
  Proof.
    induction es as [|e es IH]; intros done ls k rest HF HG O1 O2; cbn [map] in HF.
    - inversion HF; subst. rewrite app_nil_r, Nat.add_0_r. reflexivity.
    - inversion HF as [|? l ? ls' HS HF']; subst. inversion HG as [|? ? Ge Ges]; subst.
      cbn [app add_info].
      assert (H2 : has "FUNCTIONS_START" l = false) by (apply has_false; apply HS). rewrite H2.
      assert (Oh : forall k, once k (done ++ e :: es) -> once k (done ++ [e])).
      { intros k0 H. unfold once in *. change (e :: es) with ([e] ++ es) in H. rewrite app_assoc in H.
        unfold all_said in *. rewrite flat_map_app, app_length in H. lia. }
      rewrite (store_line HS Ge (Oh _ O1) (Oh _ O2)). cbn [bind].
      rewrite (IH (done ++ [e]) ls' (S k) rest HF' Ges); [|rewrite <- app_assoc; auto..].
      rewrite <- app_assoc. cbn [app List.length]. f_equal. lia.
  Qed.

  Lemma Kw_named k l : has "IMAGE_START" (lit k) = false -> Kw "IMAGE_START" l -> named l k = false.
  Proof.
    intros H K. unfold named. destruct (str_eqb l (lit k)) eqn:E; auto. apply str_eqb_true in E. subst.
    apply has_true in K. congruence.
  Qed.
  Lemma store_start l i : SaysI IStart l -> Store l i = Ok i.
  Proof.
    intros (_ & ws & HT). unfold StoreInfoFromLine. destruct ws as [|w ws].
    - assert (HK := Tokens_Kw HT).
      destruct (find_first_of l ws_delims (find_first_not_of l ws_delims (Some 0))) eqn:F.
      + destruct (proj1 (SplitString_ok ws_delims l)) as (toks & Es & Ht).
        { apply later_delim_iff. congruence. }
        rewrite (Tokens_unique _ _ _ Ht _ HT) in Es. rewrite Es. reflexivity.
      + assert (Es : SplitString l ws_delims = Ok [l]).
        { apply (proj2 (SplitString_ok ws_delims l)). rewrite later_delim_iff. intros H. apply H. exact F. }
        rewrite Es. cbn [bind]. unfold get at 1. cbn [nth_error bind].
        repeat (rewrite Kw_named; [|reflexivity|exact HK]). reflexivity.
    - rewrite (split_words HT) by (simpl; lia). reflexivity.
  Qed.

  Lemma Forall2_map_l {A B C} (f : A -> B) (R : B -> C -> Prop) (l : list A) m : Forall2 R (map f l) m -> Forall2 (fun a c => R (f a) c) l m.
  Proof.
    revert m. induction l as [|a l IH]; intros m H; cbn [map] in H; inversion H; subst; constructor; auto.
  Qed.

  Lemma newInfo_described : newInfo N = described [].
  Proof. reflexivity. Qed.

  Lemma read_imgs ims : forall secs opt, Forall2 (fun im s => Forall2 SaysI (img_lines im) s) ims secs ->
    Forall (GoodImg N strtod) ims ->
    exists infos opt', read_images N strtod strtol secs opt = Ok (inr infos, opt') /\
      Forall2 (Describes N strtod strtol) ims infos.
  Proof.
    induction ims as [|im ims IH]; intros secs opt HF HG; inversion HF as [|? s ? secs' HS HF']; subst; cbn [read_images].
    - exists [], opt. split; auto.
    - inversion HG as [|? ? Gi Gis]; subst. destruct Gi as (G1 & O1 & O2 & G2).
      unfold img_lines in HS. inversion HS as [|? l0 ? ls HS0 HSr]; subst.
      apply Forall2_app_l in HSr. destruct HSr as (ls1 & ls2 & -> & H1 & H2).
      unfold AddInfoFromLines. cbn [add_info].
      assert (K0 : has "FUNCTIONS_START" l0 = false) by (apply has_false; apply HS0). rewrite K0.
      rewrite (store_start _ HS0). cbn [bind]. rewrite newInfo_described.
      rewrite (@add_entries (im_entries im) [] ls1 1 ls2 H1 G1 O1 O2). cbn [app].
      assert (L1 : List.length ls1 = List.length (im_entries im)).
      { apply Forall2_length in H1. rewrite map_length in H1. auto. }
      destruct (im_funcs im) as [bs|] eqn:Ef.
      + inversion H2 as [|? lf ? lsf HSf HSl]; subst. cbn [add_info].
        assert (Kf : has "FUNCTIONS_START" lf = true).
        { apply has_true. destruct HSf as (_ & ws & HT). eapply Tokens_Kw; eauto. }
        rewrite Kf. cbn [bind].
        assert (E0 : (0 <? 1 + List.length (im_entries im)) = true) by (apply Nat.ltb_lt; lia). rewrite E0.
        assert (Esk : skipn (1 + List.length (im_entries im) + 1) (l0 :: ls1 ++ lf :: lsf) = lsf).
        { replace (1 + List.length (im_entries im) + 1) with (S (List.length ls1 + 1)) by lia.
          cbn [skipn]. rewrite skipn_app. rewrite skipn_all2 by lia.
          replace (List.length ls1 + 1 - List.length ls1) with 1 by lia. reflexivity. }
        rewrite Esk.
        assert (HSd : Forall2 Says (flat_map block_lines bs) lsf).
        { apply Forall2_map_l in HSl. clear - HSl. induction HSl as [|d l ds ls H HF IH]; constructor; auto. apply H. }
        unfold ParseFunctionSection.
        match goal with |- context [parse_lines N strtod true false lsf false 0 ?st] =>
          destruct (@parse_blocks T N strtod (fun _ => true) false bs lsf 0 st HSd G2) as (o & Eo & A1 & A2 & A3 & A4 & A5 & _) end.
        rewrite Eo. cbn [bind]. cbn [Z.ltb Z.compare].
        destruct (IH secs' (o_opt o) HF' Gis) as (infos & opt' & -> & HD). cbn [bind fst snd].
        eexists _, _. split; [reflexivity|]. constructor; auto. unfold Describes. rewrite Ef.
        eexists. split; [reflexivity|]. cbn [pi_names pi_params pi_limits pi_starts pi_limFound].
        cbn [o_names o_params o_limits o_starts o_limFound app orb] in *. auto.
      + inversion H2; subst. cbn [add_info bind Nat.ltb Nat.leb].
        destruct (IH secs' opt HF' Gis) as (infos & opt' & -> & HD). cbn [bind fst snd].
        eexists _, _. split; [reflexivity|]. constructor; auto. unfold Describes. rewrite Ef. reflexivity.
  Qed.

  Lemma read_file isn junk file ims opt : FileSaysI (flat_map img_lines ims) file -> ims <> [] ->
    Forall (GoodImg N strtod) ims ->
    exists infos opt', ReadImageParamsFile N strtod strtol isn junk file opt =
        Ok (0%Z, Some (List.length ims, infos), [], opt') /\
      Forall2 (Describes N strtod strtol) ims infos.
  Proof.
    intros HF Hne HG. destruct (keep_saysI HF 0%Z) as (ls & nums & E & HS).
    unfold ReadImageParamsFile. rewrite E. cbn [bind fst].
    destruct (sections_imgs HS) as (secs & Es & Hsecs).
    assert (Hls : ls <> []).
    { destruct ims as [|im ims]; [congruence|]. cbn [flat_map] in HS. unfold img_lines in HS.
      cbn [app] in HS. inversion HS. discriminate. }
    destruct (@vet_spec isn ls (map (fun _ => junk) ls)) as (bad & errs & Ev & HB & Ee); auto.
    { apply map_length. }
    assert (Hbad : bad = []).
    { eapply BadLines_all; [exact HB|]. clear - HS. induction HS; constructor; auto. eapply SaysI_acceptable; eauto. }
    assert (Hst : existsb (has "IMAGE_START") ls = true).
    { destruct ims as [|im ims]; [congruence|]. cbn [flat_map] in HS. unfold img_lines in HS.
      cbn [app] in HS. inversion HS as [|? l ? ls' Hl]; subst. cbn [existsb].
      destruct Hl as (_ & ws & HT). apply Tokens_Kw in HT. apply has_true in HT. now rewrite HT. }
    rewrite Hbad, Hst in Ee. cbn in Ee. subst errs. rewrite Ev. cbn [bind fst negb List.length Nat.eqb].
    rewrite Es. cbn [snd].
    destruct (read_imgs opt Hsecs HG) as (infos & opt' & -> & HD). cbn [bind fst snd].
    exists infos, opt'. split; auto. apply Forall2_length in Hsecs. rewrite Hsecs. reflexivity.
  Qed.

  (** every reported bad line carries the junk number *)
  Lemma read_errors isn junk file opt st out errs opt' :
    ReadImageParamsFile N strtod strtol isn junk file opt = Ok (st, out, errs, opt') ->
    Forall (fun e => fst e = IMAGEPARAMS_FILE_ERROR_BADLINE -> snd e = junk) errs.
  Proof.
    unfold ReadImageParamsFile. intros E. apply bind_Ok in E. destruct E as ((ls, nums) & _ & E). cbn [fst] in E.
    apply bind_Ok in E. destruct E as (v & Ev & E).
    assert (Hv : Forall (fun e => fst e = IMAGEPARAMS_FILE_ERROR_BADLINE -> snd e = junk) (snd v)).
    { destruct ls as [|l ls].
      - cbn in Ev. apply Ok_inj in Ev. subst v. cbn. constructor; auto. discriminate.
      - destruct (@vet_spec isn (l :: ls) (map (fun _ => junk) (l :: ls))) as (bad & errs' & Ev' & HB & Ee); [apply map_length|discriminate|].
        rewrite Ev in Ev'. apply Ok_inj in Ev'. subst v. cbn [snd]. rewrite Ee. apply Forall_app. split.
        + apply Forall_map, Forall_forall. intros n Hn _. cbn [snd].
          apply (BadLines_in HB) in Hn. apply in_map_iff in Hn. destruct Hn as (? & <- & _). reflexivity.
        + destruct (existsb _ _); constructor; auto. discriminate. }
    destruct (fst v); cbn [negb] in E.
    - apply bind_Ok in E. destruct E as (r & _ & E). destruct (fst r); apply Ok_inj in E; inversion E; subst; constructor.
    - apply Ok_inj in E. inversion E; subst. exact Hv.
  Qed.
End Store.

(** ---- the image-description parameters ---- *)
Section Desc.
  Variable T : Type.
  Variable N : Num T.

  Lemma app_upd_block {A} (a : list A) x0 x1 x2 x3 x4 y0 y1 y2 y3 y4 b i : List.length a = i * 5 ->
    (do l <- set (a ++ x0 :: x1 :: x2 :: x3 :: x4 :: b) (i * 5) y0;
     do l <- set l (i * 5 + 1) y1; do l <- set l (i * 5 + 2) y2;
     do l <- set l (i * 5 + 3) y3; set l (i * 5 + 4) y4) = Ok (a ++ y0 :: y1 :: y2 :: y3 :: y4 :: b).
  Proof.
    intros L.
    assert (St : forall (p l : list A) k y, set (p ++ l) (List.length p + k) y = (do l' <- set l k y; Ok (p ++ l'))).
    { intros p l k y. unfold set. rewrite app_length.
      replace (List.length p + k <? List.length p + List.length l) with (k <? List.length l)
        by (destruct (Nat.ltb_spec k (List.length l)), (Nat.ltb_spec (List.length p + k) (List.length p + List.length l)); auto; lia).
      destruct (k <? List.length l); cbn [bind]; auto. f_equal.
      clear. induction p as [|h p IH]; simpl; [reflexivity|]. f_equal. exact IH. }
    rewrite <- L. rewrite <- (Nat.add_0_r (List.length a)) at 1. rewrite St. cbn [set List.length Nat.ltb Nat.leb upd bind].
    rewrite St. cbn [set List.length Nat.ltb Nat.leb upd bind].
    rewrite St. cbn [set List.length Nat.ltb Nat.leb upd bind].
    rewrite St. cbn [set List.length Nat.ltb Nat.leb upd bind].
    rewrite St. cbn [set List.length Nat.ltb Nat.leb upd bind].
    reflexivity.
  Qed.

  Lemma firstn_S {A} (l : list A) i x : nth_error l i = Some x -> firstn (S i) l = firstn i l ++ [x].
  Proof.
    revert i. induction l as [|a l IH]; intros [|i] H; try discriminate; cbn [nth_error] in H.
    - inversion H. reflexivity.
    - cbn [firstn app]. f_equal. now apply IH.
  Qed.
  Lemma desc_len (l : list (ImageInfo T)) : List.length (flat_map desc_values l) = List.length l * 5.
  Proof. induction l; simpl; lia. Qed.

  Lemma desc_params infos : infos <> [] ->
    GetImageDescriptionParams N infos =
    Ok (flat_map desc_values (tl infos), (5 * (Z.of_nat (List.length infos) - 1))%Z).
  Proof.
    intros Hne. destruct infos as [|i0 l]; [congruence|]. unfold GetImageDescriptionParams, N_IMAGE_PARAMS.
    cbn [tl]. replace (List.length (i0 :: l) - 1) with (List.length l) by (simpl; lia).
    match goal with |- context [for_ _ ?f ?s] =>
      destruct (@for_inv _ (fun i a => a = flat_map desc_values (firstn i l) ++
                  repeat (nofZ N 0%Z) (5 * (List.length l - i))) f (List.length l) s) as (a & E & Ha) end.
    - cbn [firstn flat_map app]. now rewrite Nat.sub_0_r.
    - intros i s Hi ->.
      destruct (@get_lt _ l _ Hi) as (im & Eim). 
      assert (Eg : get (i0 :: l) (i + 1) = Ok im).
      { rewrite Nat.add_1_r. exact Eim. }
      rewrite Eg. cbn [bind].
      replace (5 * (List.length l - i)) with (5 + 5 * (List.length l - S i)) by lia.
      cbn [repeat Nat.add]. rewrite app_upd_block.
      + eexists. split; [reflexivity|]. apply get_Ok_iff in Eim. rewrite (firstn_S Eim), flat_map_app.
        cbn [flat_map desc_values app]. rewrite <- app_assoc. reflexivity.
      + rewrite desc_len, firstn_length, Nat.min_l by lia. reflexivity.
    - rewrite E. cbn [bind]. subst a. rewrite firstn_all, Nat.sub_diag. cbn [Nat.mul repeat]. rewrite app_nil_r. reflexivity.
  Qed.

  Lemma desc_limits_ok infos lims0 : infos <> [] ->
    GetImageDescriptionParams_limits N infos lims0 =
    Ok (flat_map desc_values (tl infos), (5 * (Z.of_nat (List.length infos) - 1))%Z,
        lims0 ++ flat_map desc_limits (tl infos),
        existsb FindIfParamLimitsExist (flat_map desc_limits (tl infos))).
  Proof.
    intros Hne. unfold GetImageDescriptionParams_limits. rewrite desc_params by auto. cbn [bind fst snd].
    destruct infos as [|i0 l]; [congruence|]. cbn [tl].
    replace (List.length (i0 :: l) - 1) with (List.length l) by (simpl; lia).
    match goal with |- context [for_ _ ?f ?s] =>
      destruct (@for_inv _ (fun i q => q = (lims0 ++ flat_map desc_limits (firstn i l),
                  existsb FindIfParamLimitsExist (flat_map desc_limits (firstn i l)))) f (List.length l) s) as (a & E & Ha) end.
    - cbn [firstn flat_map existsb]. now rewrite app_nil_r.
    - intros i s Hi ->.
      destruct (@get_lt _ l _ Hi) as (im & Eim). 
      assert (Eg : get (i0 :: l) (i + 1) = Ok im).
      { rewrite Nat.add_1_r. exact Eim. }
      rewrite Eg. cbn [bind fst snd]. eexists. split; [reflexivity|]. apply get_Ok_iff in Eim.
      rewrite (firstn_S Eim), flat_map_app, existsb_app. f_equal.
      + cbn [flat_map desc_limits app]. rewrite <- !app_assoc. reflexivity.
      + cbn [flat_map desc_limits app existsb].
        destruct (FindIfParamLimitsExist (i_pixelScaleLim im)), (FindIfParamLimitsExist (i_rotationLim im)),
          (FindIfParamLimitsExist (i_intensityScaleLim im)), (FindIfParamLimitsExist (i_x0Lim im)),
          (FindIfParamLimitsExist (i_y0Lim im)), (existsb FindIfParamLimitsExist (flat_map desc_limits (firstn i l))); reflexivity.
    - rewrite E. cbn [bind]. subst a. rewrite firstn_all. reflexivity.
  Qed.
End Desc.
