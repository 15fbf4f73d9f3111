(** C89: the image-info file that multimfit saves. *)
From Coq Require Import Ascii String List ZArith Reals Lra Lia Bool.
From Verif Require Import Base Num StrUtil_Model Config_Model Config_Spec ImgPar_Model ImgPar_Spec Build_Model Save_Model Save_Spec Save_Proof Save_Final.
From Verif Require Import StrUtil_Spec StrUtil_Proof Save_Printf Props_Save.
From Verif Require Import Multi_Model Multi_Spec Multi_TextSpec Multi_Text.
Import ListNotations.
Local Open Scope list_scope.

(** C89: the text is written, and reading it with the reader of image-info files gives
    the files and data properties of every image and, for the images after the first,
    the description in the parameter vector, to the precision printed. Everything else
    has its default value. *)
Theorem C89_image_info_partial :
  forall (T : Type) (N : Num T) (toR : T -> R) (finite : T -> Prop) (f4 g g5 : T -> str) (dec : nat -> str)
         (strtod : str -> T) (strtol : str -> Z) (IsNumeric : str -> bool) (junk : Z) (opt : list smap)
         (j : joint) (infos : list (ImageInfo T)) (params : list T) (errs : option (list T)) (header : list str),
  PrintfOK toR finite f4 g g5 -> IntsOK dec strtol ->
  List.length (j_images j) = List.length infos -> infos <> [] -> Forall (Savable finite) infos ->
  (5 * (List.length infos - 1) <= List.length params)%nat ->
  Forall finite (firstn (5 * (List.length infos - 1)) params) ->
  (forall es, errs = Some es -> (5 * (List.length infos - 1) <= List.length es)%nat) ->
  Forall Comment header ->
  exists txt infos' opt', SaveImageInfoParameters N f4 g g5 dec j infos params errs header = Ok txt /\
    ReadImageParamsFile N strtod strtol IsNumeric junk (file_lines txt) opt =
      Ok (0%Z, Some (List.length infos, infos'), [], opt') /\
    InfoBack N toR strtod infos params infos'.
Proof.
  intros T N toR finite f4 g g5 dec sd sl isn junk opt j infos params errs header HP HI Hj Hne HS HL HF He Hh.
  apply (@saved_info T N toR finite f4 g g5 dec sd sl HP HI j infos params errs header isn junk opt Hj); auto.
  repeat split; auto.
Qed.
Print Assumptions C89_image_info_partial.

(** ---- what does not hold ---- *)
(** Refuted for images of several combined frames: whatever else is known about the
    images, an int is printed with a floating-point conversion. *)
Theorem C89_combined_refuted :
  forall (T : Type) (N : Num T) (f4 g g5 : T -> str) (dec : nat -> str) (j : joint) (infos : list (ImageInfo T))
         (params : list T) (errs : option (list T)) (header : list str),
  List.length (j_images j) = List.length infos -> Exists (fun im => i_nCombined im <> 1%Z) infos ->
  forall txt, SaveImageInfoParameters N f4 g g5 dec j infos params errs header <> Ok txt.
Proof. exact combined_undefined. Qed.
Print Assumptions C89_combined_refuted.

(** Refuted: weight, exposure time, mask format, kind of errors and functions of its own
    of an image are lost, as are limits. *)
Theorem C89_lost_refuted :
  forall (T : Type) (N : Num T) (toR : T -> R) (finite : T -> Prop) (f4 g g5 : T -> str) (dec : nat -> str)
         (strtod : str -> T) (strtol : str -> Z) (IsNumeric : str -> bool) (junk : Z) (opt : list smap)
         (j : joint) (im : ImageInfo T),
  PrintfOK toR finite f4 g g5 -> IntsOK dec strtol -> List.length (j_images j) = 1%nat -> Savable finite im ->
  exists txt im' opt', SaveImageInfoParameters N f4 g g5 dec j [im] [] None [] = Ok txt /\
    ReadImageParamsFile N strtod strtol IsNumeric junk (file_lines txt) opt = Ok (0%Z, Some (1%nat, [im']), [], opt') /\
    i_weight im' = nofZ N 1 /\ i_expTime im' = nofZ N 1 /\ i_maskBadIsZero im' = false /\ i_errorType im' = 0%Z /\ i_perImage im' = None.
Proof.
  intros T N toR finite f4 g g5 dec sd sl isn junk opt j im HP HI Hj HS.
  destruct (C89_image_info_partial T N toR finite f4 g g5 dec sd sl isn junk opt j [im] [] None [] HP HI) as (txt & infos' & opt' & E & ER & HL & HB); auto; try discriminate; try constructor; auto.
  destruct infos' as [|im' [|? ?]]; try discriminate. exists txt, im', opt'. split; auto. split; auto.
  destruct (HB 0%nat im im' eq_refl eq_refl) as (_ & HR & _). destruct HR. auto.
Qed.
Print Assumptions C89_lost_refuted.

(** Refuted for image sections: two images are fitted, the second is the section of a
    file that begins [ox + 1] columns into it, and the start value of its centre, in the
    coordinates of the file as the user gave it, is [x]. Saving where the fit begins and
    reading this again gives a centre that is wrong by [ox]. *)
Theorem C89_sections_refuted :
  forall (finite : R -> Prop) (f4 g g5 : R -> str) (dec : nat -> str)
         (strtod : str -> R) (strtol : str -> Z) (IsNumeric : str -> bool) (junk : Z) (opt : list smap)
         (j : joint) (a b : ImageInfo R) (o0 : Z * Z) (ox oy : Z) (v v' : list R) (l l' : list (mp_par R)) (x : R),
  PrintfOK (fun r => r) finite f4 g g5 -> IntsOK dec strtol ->
  List.length (j_images j) = 2%nat -> Savable finite a -> Savable finite b ->
  CorrectForImageOffsets NumR j [o0; (ox, oy)] v l = Ok (v', l') ->
  nth_error v 3 = Some x -> (1 <= ox)%Z -> (5 <= List.length v')%nat -> Forall finite (firstn 5 v') ->
  exists txt a' b' opt' s r, SaveImageInfoParameters NumR f4 g g5 dec j [a; b] v' None [] = Ok txt /\
    ReadImageParamsFile NumR strtod strtol IsNumeric junk (file_lines txt) opt = Ok (0%Z, Some (2%nat, [a'; b']), [], opt') /\
    i_x0 b' = strtod s /\ Decimal s r /\ (Rabs (r - (x - IZR ox)) <= 5 / 100000)%R /\ (Rabs (r - x) > 9 / 10)%R.
Proof.
  intros finite f4 g g5 dec sd sl isn junk opt j a b o0 ox oy v v' l l' x HP HI Hj Ha Hb HC Hx Ho HL HF.
  pose proof (moved_x0 (N := NumR) Hj Hx HC) as Hm. cbn in Hm.
  destruct (C89_image_info_partial R NumR (fun r => r) finite f4 g g5 dec sd sl isn junk opt j [a; b] v' None [] HP HI) as (txt & infos' & opt' & E & ER & HLn & HB); auto; try discriminate.
  destruct infos' as [|a' [|b' [|? ?]]]; try discriminate.
  destruct (HB 1%nat b b' eq_refl eq_refl) as (_ & _ & HV). destruct HV as [HV _].
  destruct v' as [|v0 [|v1 [|v2 [|v3 [|v4 v']]]]]; cbn [List.length] in HL; try lia.
  cbn [nth_error] in Hm. injection Hm as Hm.
  cbn [Nat.mul Nat.add skipn firstn combine] in HV.
  inversion HV as [|? ? ? ? _ HV1]; subst. inversion HV1 as [|? ? ? ? _ HV2]; subst. inversion HV2 as [|? ? ? ? _ HV3]; subst.
  inversion HV3 as [|? ? ? ? HR _]; subst. destruct HR as (s & r & Es & Er & Hr). cbn [fst snd] in Hr.
  exists txt, a', b', opt', s, r. split; auto. split; auto. split; auto. split; auto. split; auto.
  apply IZR_le in Ho. cbn in Hr. clear -Ho Hr. unfold Rabs in *. repeat destruct Rcase_abs; lra.
Qed.
Print Assumptions C89_sections_refuted.

(** ---- the theorems are about something ---- *)
Definition exInfo (n : Z) : ImageInfo R :=
  mkInfo (Some (lit "b.fits[10:200,1:50]")) (Some (lit "mask.fits")) true (Some (lit "e.fits")) 1 (Some (lit "psf.fits")) 2%R 4.5%R 3%R 120%R 60%R n 0%R 0%R 0 0 1%R 1%R 0%R
    [lit "p1.fits"; lit "p2.fits"] [3; 10]%Z [lit "1:10,1:10"; lit "20:30,1:10"; lit "40:50,1:10"] None
    (mkPar false false false 0%R 0%R) (mkPar false false false 0%R 0%R) (mkPar false false false 0%R 0%R) (mkPar false false false 0%R 0%R) (mkPar false false false 0%R 0%R).
Definition exDec (n : nat) : text := print 40 (Z.of_nat n).
Definition exStrtol (s : text) : Z := read_digits s 0.
Lemma print_hd k : forall z, (0 < z < 10 ^ Z.of_nat k)%Z -> hd (ch 32) (print k z) <> ch 48.
Proof.
  induction k as [|k IH]; intros z Hz; [cbn in Hz; lia|]. cbn [print]. destruct (Z.ltb_spec z 10).
  - cbn [hd]. intros E. destruct (digit_of_val z) as [_ D]; [lia|]. rewrite E in D. change (nat_of_ascii (ch 48)) with 48%nat in D. lia.
  - destruct k as [|k]; [cbn in Hz; lia|].
    assert (Hq : (0 < z / 10 < 10 ^ Z.of_nat (S k))%Z).
    { split; [apply Z.div_str_pos; lia|]. apply Z.div_lt_upper_bound; [lia|]. rewrite (Nat2Z.inj_succ (S k)), Z.pow_succ_r in Hz by lia. lia. }
    specialize (IH _ Hq). assert (L : print (S k) (z / 10) <> []).
    { cbn [print]. destruct (z / 10 <? 10)%Z; [discriminate|]. destruct (print k (z / 10 / 10)); discriminate. }
    destruct (print (S k) (z / 10)) as [|c t]; [congruence|exact IH].
Qed.
Lemma exInts : IntsOK exDec exStrtol.
Proof.
  constructor.
  - intros n Hn. unfold Int in Hn. unfold exDec.
    assert (B : (0 < Z.of_nat n < 10 ^ Z.of_nat 40)%Z) by (change (10 ^ Z.of_nat 40)%Z with (10 ^ 40)%Z; lia).
    split; [apply print_digits; [lia|lia]|]. split; [pose proof (print_length 40 (Z.of_nat n)); lia|now apply print_hd].
  - intros s v Hs _ _. now apply Digits_read.
Qed.
Definition good_fileb (w : text) : bool :=
  negb (Nat.eqb (List.length w) 0) && Nat.leb (List.length w) 900 &&
  forallb (fun c => forallb (fun n => negb (Nat.eqb (nat_of_ascii c) n)) [10; 9; 32; 0; 35]%nat &&
                    negb (Nat.leb 65 (nat_of_ascii c) && Nat.leb (nat_of_ascii c) 90)) w.
Lemma good_file w : good_fileb w = true -> GoodFile w.
Proof.
  unfold good_fileb. rewrite !andb_true_iff, negb_true_iff, Nat.leb_le, forallb_forall. intros ((H1 & H2) & H3).
  split; [intros ->; discriminate|]. split; auto. split.
  - apply Forall_forall. intros c Hc. specialize (H3 c Hc). rewrite andb_true_iff, forallb_forall in H3. destruct H3 as [H3 _].
    assert (K : forall n, In n [10; 9; 32; 0; 35]%nat -> c <> ascii_of_nat n).
    { intros n Hn ->. specialize (H3 n Hn). rewrite nat_ascii_embedding in H3 by (cbn in Hn; lia). now rewrite Nat.eqb_refl in H3. }
    split; [|split; apply K; cbn; tauto].
    intros [E|[E|[E|[]]]]; symmetry in E; revert E; apply K; cbn; tauto.
  - apply NoSec_small. apply Forall_forall. intros c Hc K. specialize (H3 c Hc). rewrite andb_true_iff in H3. destruct H3 as [_ H3].
    rewrite negb_true_iff, andb_false_iff, !Nat.leb_gt in H3. unfold capital in K. lia.
Qed.
Lemma mod_int n : (1 <= n < 10 ^ 10)%Z -> moderate (IZR n).
Proof. intros H. replace (IZR n) with (IZR n / IZR 1)%R by (cbn; field). apply mod_num; lia. Qed.
Lemma exSavable : Savable moderate (exInfo 1).
Proof.
  constructor; cbn [exInfo i_nCombined i_dataFile i_maskFile i_errorFile i_psfFile i_originalSky i_gain i_readNoise i_overFiles i_overRegions i_overScales GoodFile'];
    try (apply good_file; reflexivity); try (apply mod_int; lia).
  - reflexivity.
  - replace 4.5%R with (IZR 9 / IZR 2)%R by lra. apply mod_num; lia.
  - repeat (constructor; [apply good_file; reflexivity|]). constructor.
  - repeat (constructor; [apply good_file; reflexivity|]). constructor.
  - repeat (constructor; [unfold Int; lia|]). constructor.
  - cbn. repeat split; try lia. discriminate.
Qed.
(** two images with masks, error images, PSFs and two oversampled regions sharing the last PSF;
    a weight and an exposure time are given *)
Example C89_case : PrintfOK (fun v => v) moderate f4R gR gR /\ IntsOK exDec exStrtol /\ Forall (Savable moderate) [exInfo 1; exInfo 1] /\
  Exists (fun im => i_nCombined im <> 1%Z) [exInfo 1; exInfo 3] /\ i_weight (exInfo 1) = 2%R /\ i_expTime (exInfo 1) = 60%R /\
  (forall j p, List.length (j_images j) = 2%nat -> j_nParamsTot j = 5%nat ->
     CorrectForImageOffsets NumR j [(0, 0); (9, 0)]%Z [1; 0; 1; 50; 25]%R (repeat p 5) =
     Ok ([1; 0; 1; 50 - 9; 25 - 0]%R, [p; p; p; mkPar (p_fixed p) (p_lim0 p) (p_lim1 p) (if p_lim0 p then p_lo p - 9 else p_lo p)%R (if p_lim1 p then p_hi p - 9 else p_hi p)%R;
            mkPar (p_fixed p) (p_lim0 p) (p_lim1 p) (if p_lim0 p then p_lo p - 0 else p_lo p)%R (if p_lim1 p then p_hi p - 0 else p_hi p)%R])) /\
  Forall moderate [1; 0; 1; 50 - 9; 25 - 0]%R.
Proof.
  split; [exact printfR|]. split; [exact exInts|]. split; [constructor; [exact exSavable|]; constructor; [exact exSavable|constructor]|].
  split; [apply Exists_cons_tl, Exists_cons_hd; discriminate|]. split; [reflexivity|]. split; [reflexivity|]. split.
  - intros j p Hj Hn. unfold CorrectForImageOffsets. rewrite Hj, Hn. reflexivity.
  - apply Forall_cons; [apply mod_int; lia|]. apply Forall_cons; [left; lra|]. apply Forall_cons; [apply mod_int; lia|].
    apply Forall_cons; [replace (50 - 9)%R with (IZR 41) by lra; apply mod_int; lia|].
    apply Forall_cons; [replace (25 - 0)%R with (IZR 25) by lra; apply mod_int; lia|constructor].
Qed.
