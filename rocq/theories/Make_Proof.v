(** Proofs for C76-C78: a run of makeimage. *)
From Coq Require Import ZArith List Bool Ascii String Reals Lia Lra.
From Verif Require Import Base Num Sums Params_Model Params_Spec Params_Proof Conv_Model Conv_Spec Conv_Proof Image_Model Image_Spec Image_Proof Image_History Image_Final Par_Model Par_Spec
  CmdLine_Spec Opt_Spec Opt_Num Opt_Config Start_Spec Config_Model Build_Spec Build_Proof Save_Spec.
From Verif Require Import StrUtil_Model Save_Model Opt_Model Start_Model Make_Model Make_Spec Make_Image Make_Flux.
From Verif Require Save_Proof Start_Proof.
Import ListNotations.
Local Open Scope string_scope.
Local Open Scope list_scope.
Local Open Scope nat_scope.
Set Implicit Arguments.
Unset Strict Implicit.

Lemma names_count (T : Type) (bs : list (sblock T)) : Forall Sized (sall bs) -> List.length (param_names bs) = List.length (sflat bs).
Proof.
  induction bs as [|b bs IH]; [reflexivity|]. intros H. unfold sall in H. cbn [flat_map] in H. apply Forall_app in H. destruct H as [H1 H2].
  rewrite Save_Proof.param_names_cons, Save_Proof.sflat_cons. cbn [List.length]. do 2 f_equal. rewrite !app_length, (IH H2). f_equal.
  clear -H1. induction H1 as [|f l (c & Hc & Hn & HL) _ IH]; [reflexivity|]. cbn [flat_map].
  rewrite !app_length, IH. f_equal. rewrite (@names_of_class T f c Hc Hn). auto.
Qed.

Lemma fold_total l : fold_left Rplus l 0%R = total l.
Proof.
  assert (H : forall l a, fold_left Rplus l a = (a + total l)%R).
  { clear. induction l as [|x l IH]; intros a.
    - unfold total. cbn. lra.
    - cbn [fold_left]. rewrite IH. unfold total. cbn [List.length].
      change (S (List.length l)) with (1 + List.length l). rewrite rsum_S_l. cbn [nth]. lra. }
  rewrite H. lra.
Qed.

Section Run.
  Variable interpolator : Z -> list R -> nat -> nat -> R -> R -> R.
  Variable implement : word -> component R.
  Variable strtod : word -> R.
  Variable dbl : string -> R.
  Variable cores : Z.
  Variable ReadImage : word -> option (nat * nat * list R).
  Variable log10 : R -> R.
  Variables e4 f4 f5 e3 g : R -> word.
  Variable dec : nat -> word.
  Variables timestamp program : word.
  Variables nThreads chunk : nat.
  Variable junk : Z * Z.
  Variable garbage : list (R -> R -> R).
  Variable its : list item.
  Variable bs : list (sblock R).
  Variables w h : nat.
  Variable o : opts R.
  Hypothesis Hbs : bs <> [].
  Hypothesis Hfs : Forall (fun b => s_funcs b <> []) bs.
  Hypothesis HS : Forall Sized (sall bs).
  Hypothesis HI : Forall (Implemented implement) (sall bs).
  Hypothesis Hw : 1 <= w.
  Hypothesis Hh : 1 <= h.
  Hypothesis HO : forall k, k <> K_nColumns -> k <> K_nRows -> o k = @meaning_of R strtod dbl cores its Makeimage k.
  Hypothesis HNO : values its ["overpsf"] = [].
  Hypothesis HCl : clean its.
  Hypothesis HR : forall n c r p, ReadImage n = Some (c, r, p) -> 1 <= c /\ 1 <= r /\ List.length p = c * r.
  Hypothesis HPU : forall n, Start_Spec.first its "psf" = Some n -> PsfUsable NumR ReadImage its n.
  Hypothesis HBu : Buildable (psf_size ReadImage its) (sall bs).
  Hypothesis HPS : PrintfShort e4 f4 f5 e3 g dec timestamp program.
  Hypothesis HNS : NamesShort its bs.
  Hypothesis HG : List.length garbage = List.length (sall bs).

  Let PSF := psf_used ReadImage its.
  Definition psf_file : option (nat * nat * list R) :=
    match Start_Spec.first its "psf" with Some n => ReadImage n | None => None end.

  Lemma psf_cases :
    (Start_Spec.first its "psf" = None /\ Opt_Spec.has its "psf" = false /\ PSF = None /\ psf_file = None) \/
    (exists n c r p, Start_Spec.first its "psf" = Some n /\ Opt_Spec.has its "psf" = true /\ Opt_Spec.text R its ["psf"] "" = VS n /\
       ReadImage n = Some (c, r, p) /\ psf_file = Some (c, r, p) /\
       PSF = Some (mkPSF p c r (negb (given its ["no-normalize"]))) /\ 1 <= c /\ 1 <= r /\ List.length p = c * r /\
       (given its ["no-normalize"] = true \/ Rleb (total p) 0 = false)).
  Proof.
    unfold PSF, psf_used, psf_wanted, psf_file. pose proof HPU as HP. unfold Start_Spec.first in *. unfold Opt_Spec.has, Opt_Spec.text.
    destruct (values its ["psf"]) as [|n t] eqn:E; cbn [hd_error option_map] in *; [left; auto|].
    right. destruct (HP n eq_refl) as (A & _ & B). destruct (ReadImage n) as [[[c r] p]|] eqn:ER; [|congruence].
    destruct (HR ER) as (H1 & H2 & H3). exists n, c, r, p. unfold Start_Spec.pixels, Start_Spec.columns, Start_Spec.rows in *. rewrite ER in *.
    split; [reflexivity|]. split; [reflexivity|]. split; [reflexivity|]. split; [reflexivity|]. split; [reflexivity|]. split; [reflexivity|]. split; [exact H1|].
    split; [exact H2|]. split; [exact H3|]. destruct B as [B|B]; [left; exact B|right]. rewrite <- fold_total. exact B.
  Qed.

  Lemma ob k b : k <> K_nColumns -> k <> K_nRows -> @meaning_of R strtod dbl cores its Makeimage k = VB b -> as_bool (o k) = Ok b.
  Proof. intros H1 H2 H3. rewrite (@HO k H1 H2), H3. reflexivity. Qed.

  Definition local_psf : option (list R * nat * nat) := psf_spec PSF.

  Lemma valid : Image_Spec.valid_psf PSF.
  Proof.
    destruct psf_cases as [(_ & _ & -> & _)|(n & c & r & p & _ & _ & _ & _ & _ &  -> & H1 & H2 & H3 & H4)]; [exact I|].
    cbn. split; [exact H1|]. split; [exact H2|]. split; [exact H3|]. intros E. destruct H4 as [H4|H4].
    - rewrite H4 in E. discriminate.
    - intros Z0. change (total p = 0%R) in Z0. unfold Rleb in H4. rewrite Z0 in H4. destruct (Rle_dec 0 0) as [|X]; [discriminate|]. apply X. apply Rle_refl.
  Qed.

  Lemma setup_object_ok :
    exists mp, SetupModelObject NumR dft_r2c dft_c2r interpolator o (Z.of_nat w) (Z.of_nat h) psf_file [] =
      Ok (inr (mkModel [] [] w h mp (fun _ _ => 0%R) [], local_psf)) /\
      (forall fs fl i, psf_ok (mkModel fs fl w h mp i []) (psf_spec PSF)).
  Proof.
    destruct (@model_set_up [] [] PSF (fun _ _ => 0%R) w h Hw Hh valid) as (mp & EM & PO).
    exists mp. split; [|intros fs fl i; exact PO].
    unfold SetupModelObject.
    rewrite (@ob K_psfImagePresent (Opt_Spec.has its "psf")) by (discriminate || reflexivity).
    rewrite (@ob K_normalizePSF (negb (given its ["no-normalize"]))) by (discriminate || reflexivity).
    rewrite (@ob K_psfOversampling (Opt_Spec.has its "overpsf")) by (discriminate || reflexivity).
    assert (EO : Opt_Spec.has its "overpsf" = false) by (unfold Opt_Spec.has; now rewrite HNO). rewrite EO. cbn [bind].
    assert (EA : (if Opt_Spec.has its "psf" then
               match psf_file with
               | Some (c, r, pix) =>
                 do a <- AddPSFVector NumR (c * r) c r pix (negb (given its ["no-normalize"])) false;
                 let '(status, local, p) := a in
                 Ok (status, option_map (fun l => (l, c, r)) local, p)
               | None => Undef
               end
             else Ok (0%Z, None, None)) = Ok (0%Z, local_psf, PSF)).
    { unfold local_psf. destruct psf_cases as [(E1 & E2 & E3 & E4)|(n & c & r & p & E1 & E2 & E2' & E3 & E4 & E5 & H1 & H2 & H3 & H4)].
      - rewrite E2, E3. reflexivity.
      - rewrite E2, E4, E5. rewrite <- H3. rewrite (@AddPSFVector_exact p c r _ false H1 H2 H3).
        replace (negb (given its ["no-normalize"]) && Rleb (total p) 0) with false; [reflexivity|].
        symmetry. destruct H4 as [H4|H4]; rewrite H4; [reflexivity|apply andb_false_r]. }
    rewrite EA. cbn [bind]. change (0 <? 0)%Z with false. cbv iota. rewrite !Nat2Z.id.
    change (nofZ NumR 0) with 0%R. rewrite EM. reflexivity.
  Qed.

  Let B os : built := mkBuilt os (flag_list (map as_blk bs)) (param_names bs) (List.length (param_names bs)).

  Lemma no_psr : Forall (fun f => s_name f = PSR -> LowerCase f) (sall bs).
  Proof. eapply Forall_impl; [|exact HI]. cbn. intros f (_ & H & _) E. contradiction. Qed.

  Lemma find_first (os : list fobj) (fs : list (sfunc R)) : Forall2 (@MadeBy R) os fs ->
    match find Build_Model.is_point os with
    | None => Forall (fun f => ~ IsPoint (s_name f)) fs
    | Some o => Build_Model.is_point o = true /\ exists f, In o os /\ FirstPoint fs f /\ MadeBy o f
    end.
  Proof.
    induction 1 as [|x f os fs M _ IH]; cbn [find]; [constructor|].
    destruct (MadeBy_props M) as (_ & _ & HP).
    destruct (Build_Model.is_point x) eqn:E.
    - split; [exact E|]. exists f. split; [left; reflexivity|]. split; [|exact M].
      exists [], fs. split; [reflexivity|]. split; [now apply HP|constructor].
    - assert (HN : ~ IsPoint (s_name f)) by (intros X; apply HP in X; congruence).
      destruct (find Build_Model.is_point os) as [y|].
      + destruct IH as (E1 & f1 & H1 & (a & b & -> & H2 & H3) & H4). split; [exact E1|]. exists f1. split; [now right|]. split; [|exact H4].
        exists (f :: a), b. split; [reflexivity|]. split; [exact H2|]. constructor; auto.
      + constructor; auto.
  Qed.
  Lemma first_point_unique (fs : list (sfunc R)) f f' : FirstPoint fs f -> FirstPoint fs f' -> f = f'.
  Proof.
    intros (a & b & -> & P & Q) (a' & b' & E & P' & Q').
    revert a' Q' E. induction a as [|x a IH]; intros [|y a'] Q' E; cbn in E.
    - injection E. auto.
    - injection E as E0 E1; subst. inversion Q'; subst. contradiction.
    - injection E as E0 E1; subst. inversion Q; subst. contradiction.
    - injection E as E0 E1. inversion Q; subst. inversion Q'; subst. eapply IH; eauto.
  Qed.
  Lemma asked_fun (f : sfunc R) m m' : Asked f m -> Asked f m' -> m = m'.
  Proof.
    intros [(v & r & E1 & H1)|[N1 ->]] [(v' & r' & E2 & H4)|[N2 ->]]; auto.
    - rewrite E1 in E2. inversion E2; subst. clear -H1 H4. inversion H1; subst; inversion H4; subst; reflexivity.
    - exfalso; eauto.
    - exfalso; eauto.
  Qed.
  Lemma code_fun m t t' : MethodCode m t -> MethodCode m t' -> t = t'.
  Proof. intros H H'. inversion H; subst; inversion H'; subst; reflexivity. Qed.

  Lemma built_ok : exists os,
    AddFunctions (option_map (fun p => (Z.of_nat (snd (fst p)), Z.of_nat (snd p))) local_psf)
      (map s_name (sall bs)) (map s_label (sall bs)) (sstarts bs) (map s_opts (sall bs)) = Ok (0%Z, Some (B os)) /\
    Forall2 MadeFrom os (sall bs) /\
    forall m : model R, exists interp, add_functions NumR interpolator implement m local_psf (B os) =
        Ok (mkModel (functions implement bs) (flag_list (map as_blk bs)) (mo_dataCols m) (mo_dataRows m) (mo_psf m) interp (mo_regions m)) /\
      Interpolates interpolator ReadImage its bs interp.
  Proof.
    assert (EL : option_map (fun p : list R * nat * nat => (Z.of_nat (snd (fst p)), Z.of_nat (snd p))) local_psf = psf_size ReadImage its).
    { unfold local_psf, psf_size, psf_spec. fold PSF. destruct PSF; reflexivity. }
    rewrite EL. destruct (@add_functions_ok R (psf_size ReadImage its) bs Hbs Hfs) as [(s & _ & _ & HN)|(os & E & _ & H2 & H3)]; [contradiction|].
    exists os. split; [exact E|]. split.
    { clear -H2. induction H2 as [|x f os fs M _ IH]; constructor; auto. exact (proj1 (MadeBy_props M)). }
    intros m. unfold add_functions. cbn [Build_Model.b_funcs B Build_Model.b_flags].
    assert (EF : map (fun f => co_func (implement (c_name (fo_class f)))) os = functions implement bs).
    { unfold functions. clear -H2. induction H2 as [|x f os fs M _ IH]; [reflexivity|]. cbn [map].
      destruct (MadeBy_props M) as ([[_ E] _ _] & _). rewrite E, IH. reflexivity. }
    rewrite EF. pose proof (find_first H2) as HF. destruct (find Build_Model.is_point os) as [x|].
    - destruct HF as (Ex & f & Hx & HFP & HMB).
      assert (NP : s_name f = PS).
      { destruct HFP as (a & b & E1 & [P|P] & _); [exact P|]. exfalso. rewrite Forall_forall in HI. apply (HI f); [|exact P].
        rewrite E1. apply in_or_app. right. left. reflexivity. }
      destruct (MadeBy_props HMB) as ([_ _ HA] & _). specialize (HA (or_introl NP)).
      destruct (asked_code HA) as [HC _]. set (t := interpolationMap (fo_method x)) in *.
      assert (HAll : AllHave t os).
      { apply (H3 f t no_psr HFP). intros mm Hm. now rewrite <- (asked_fun HA Hm). }
      unfold AllHave in HAll. rewrite Forall_forall in HAll. rewrite (HAll x Hx Ex).
      destruct HBu as [_ HBP]. destruct HBP as (c & r & EP & _).
      { destruct HFP as (a & b & -> & P & _). apply Exists_exists. exists f. split; [apply in_or_app; right; left; reflexivity|exact P]. }
      unfold psf_size in EP. unfold local_psf, psf_spec. fold PSF in EP. destruct PSF as [p|] eqn:EPP; [|discriminate].
      cbn [option_map bind]. eexists. split; [reflexivity|].
      intros f' m' t' p' HF' HA' HC' HP'. rewrite (first_point_unique HF' HFP) in HA'. rewrite <- (asked_fun HA HA') in HC'.
      rewrite (code_fun HC' HC). unfold PSF in EPP. rewrite EPP in HP'. injection HP' as <-. reflexivity.
    - eexists. split; [reflexivity|]. intros f m' t p (a & b & E1 & P & _). exfalso.
      rewrite Forall_forall in HF. apply (HF f); [|exact P]. rewrite E1. apply in_or_app. right. left. reflexivity.
  Qed.

  Let NOTES := notes program its.
  Lemma prepare_ok : PrepareImageComments program o = Ok NOTES.
  Proof.
    unfold PrepareImageComments.
    rewrite (@HO K_configFileName), (@HO K_psfImagePresent), (@HO K_psfFileName) by discriminate.
    cbn [meaning_of makeimage_meaning first_of oversampling_member making_member].
    destruct HPS as (_ & _ & _ & [P1 P2]). destruct HNS as ([C1 C2] & HN & _).
    assert (EA : as_str (@argument R its "") = Ok (config_file its)).
    { unfold argument, config_file. destruct (positional its); reflexivity. }
    rewrite EA. cbn [bind as_bool]. rewrite (Opt_Num.cstr_no_nul P2), (Opt_Num.cstr_no_nul C2).
    destruct psf_cases as [(E1 & E2 & E3 & E4)|(n & c & r & p & E1 & E2 & E2' & _)].
    - rewrite E2. assert (ET : as_str (Opt_Spec.text R its ["psf"] "") = Ok []).
      { unfold Opt_Spec.text, Start_Spec.first in *. destruct (values its ["psf"]); [reflexivity|discriminate]. }
      rewrite ET. cbn [bind].
      rewrite print_le by (rewrite app_length; change (List.length (lit "Model image generated by ")) with 25; lia). cbn [bind].
      rewrite print_le by (rewrite app_length; change (List.length (lit "Using config file ")) with 18; lia). cbn [bind].
      unfold NOTES, notes. rewrite E1. reflexivity.
    - rewrite E2, E2'. cbn [as_str bind].
      destruct (HN n "psf") as [N1 N2]; [left; reflexivity|exact E1|]. rewrite (Opt_Num.cstr_no_nul N2).
      rewrite print_le by (rewrite app_length; change (List.length (lit "Model image generated by ")) with 25; lia). cbn [bind].
      rewrite print_le by (rewrite app_length; change (List.length (lit "Using config file ")) with 18; lia). cbn [bind].
      rewrite print_le by (rewrite app_length; change (List.length (lit "Using convolution with PSF image ")) with 33; lia). cbn [bind].
      unfold NOTES, notes. rewrite E1. reflexivity.
  Qed.

  Lemma sizes_fs : map (@fn_nParams R) (functions implement bs) = sizes (map as_blk bs).
  Proof.
    rewrite sizes_sall. unfold functions. rewrite map_map. apply map_ext_in. intros f Hf. pose proof HI as X. rewrite Forall_forall in X. exact (proj1 (X f Hf)).
  Qed.

  Lemma text_str ns d : as_str (Opt_Spec.text R its ns d) = Ok (match values its ns with v :: _ => v | [] => wd d end).
  Proof. unfold Opt_Spec.text. destruct (values its ns); reflexivity. Qed.

  Let WANTS : bool := given its ["print-fluxes"] || Opt_Spec.has its "save-fluxes".
  Lemma images_ok mp interp os psz : (forall fs fl i, psf_ok (mkModel fs fl w h mp i []) (psf_spec PSF)) ->
    Forall2 MadeFrom os (sall bs) -> Interpolates interpolator ReadImage its bs interp ->
    (saving its = true -> given its ["save-expanded"] = true -> psz = (Z.of_nat (psf_cols ReadImage its), Z.of_nat (psf_rows ReadImage its))) ->
    exists images, Images interpolator implement dec program ReadImage its bs w h images /\
      forall sched, make NumR dft_r2c dft_c2r implement log10 e4 f4 f5 e3 g dec timestamp program nThreads chunk sched garbage o
          (Z.of_nat w) (Z.of_nat h) psz (mkModel (functions implement bs) (flag_list (map as_blk bs)) w h mp interp []) (B os) (sflat bs) =
        do t <- (if WANTS then DetermineFluxes NumR implement log10 e4 f4 f5 e3 g timestamp program nThreads chunk sched o (B os) (sflat bs) else Ok []);
        Ok (images ++ t).
  Proof.
    intros HP HM HInt HX. set (m := mkModel _ _ w h mp interp []).
    pose proof (@as_blk_ok R bs Hbs Hfs) as HB. pose proof sizes_fs as Hsz.
    destruct HPS as (_ & HD & _). pose proof HNS as (_ & HN & HL).
    assert (G0 : good m (initial NumR m garbage)).
    { apply initial_good. cbn [mo_funcs m]. rewrite HG. unfold functions. now rewrite map_length. }
    destruct (@create_ok m (map as_blk bs) (psf_spec PSF) HB Hsz eq_refl (HP _ _ _) Hw eq_refl _ G0) as (st & model & EC & G1 & EG & LM & VM).
    cbn [mo_dataCols mo_dataRows mo_interp mo_funcs m] in LM, VM.
    assert (EPC : psfCols m = psf_cols ReadImage its /\ psfRows m = psf_rows ReadImage its).
    { pose proof (HP (functions implement bs) (flag_list (map as_blk bs)) interp) as X. unfold psf_ok in X.
      unfold psfCols, psfRows, psf_cols, psf_rows. cbn [mo_psf m] in *. fold PSF. destruct PSF as [p|]; cbn [psf_spec option_map] in X.
      - destruct mp as [[[a b] pl]|]; [|contradiction]. destruct X as (-> & -> & _). auto.
      - destruct mp as [[[a b] pl]|]; [contradiction|]. auto. }
    destruct EPC as [EP1 EP2].
    destruct (@crop_ok m st (g_vec G1) Hw) as (model' & EG' & _ & VC). rewrite EG in EG'. injection EG' as <-.
    assert (LW : List.length (st_vec st) = (w + 2 * psf_cols ReadImage its) * (h + 2 * psf_rows ReadImage its)).
    { rewrite (g_vec G1). unfold nModelVals, nModelColumns, nModelRows. rewrite <- EP1, <- EP2. reflexivity. }
    set (root := match values its ["output-functions"] with v :: _ => v | [] => [] end).
    assert (SR : Short 900 root).
    { unfold root. destruct (values its ["output-functions"]) as [|v t] eqn:E; [split; [cbn; lia|intros []]|].
      apply (HN v "output-functions"); [right; left; reflexivity|]. unfold Start_Spec.first. now rewrite E. }
    destruct (@singles_ok implement dec bs w h mp interp (psf_spec PSF) (B os) HB Hsz (HP _ _ _) Hw Hh HM HD HL NOTES root st SR G1)
      as (single & st2 & ES & G2 & VS_).
    fold m in ES, G2.
    set (images := if saving its then
             PImage (output_file its) (Z.of_nat w) (Z.of_nat h) model NOTES ::
             (if given its ["save-expanded"] then
                [PImage (wd "expanded_" ++ output_file its) (Z.of_nat (w + 2 * psf_cols ReadImage its)) (Z.of_nat (h + 2 * psf_rows ReadImage its)) (st_vec st) NOTES]
              else []) ++
             match Start_Spec.first its "output-functions" with
             | Some root => map (fun '(i, f) => PImage (function_file dec root i f) (Z.of_nat w) (Z.of_nat h) (single i) (NOTES ++ [function_note f]))
                              (combine (seq 0 (List.length (sall bs))) (sall bs))
             | None => []
             end
           else []).
    exists images. split.
    { exists interp, model, (st_vec st), single. split; [exact HInt|]. split; [reflexivity|].
      split; [split; [exact LM|exact VM]|]. split.
      { split; [exact LM|]. intros c r Hc Hr. etransitivity; [apply VC; assumption|].
        f_equal. unfold Image_Model.nModelColumns. rewrite EP1, EP2. cbn [mo_dataCols m]. f_equal; [f_equal|]; apply Nat.add_comm. }
      split; [exact LW|]. split; [exact VS_|]. split; [exact LM|]. intros c r Hc Hr. rewrite VM by assumption.
      fold (places bs). pose proof (@n_es implement bs w h mp interp Hsz) as Le.
      assert (D : exists d : func R, True).
      { destruct (functions implement bs) as [|d l] eqn:E; [|now exists d]. exfalso. apply (f_equal (@List.length _)) in E. unfold functions in E.
        rewrite map_length in E. destruct bs as [|b0 b1]; [congruence|]. inversion Hfs; subst. unfold sall in E. cbn [flat_map] in E. rewrite app_length in E.
        destruct (s_funcs b0); [congruence|discriminate]. }
      destruct D as [d _].
      rewrite (@image_pixel_sum (psf_spec PSF) interp d (0%R, 0%R, []) c r _ _ Le). apply rsum_ext. intros i Hi.
      destruct (VS_ i (nth i (functions implement bs) d) (nth i (places bs) (0%R, 0%R, []))) as [_ V].
      - now apply nth_error_nth'.
      - apply nth_error_nth'. now rewrite Le.
      - symmetry. now apply V. }
    intros sched. unfold make.
    rewrite (@ob K_printFluxes (given its ["print-fluxes"])) by (discriminate || reflexivity).
    rewrite (@ob K_saveFluxes (Opt_Spec.has its "save-fluxes")) by (discriminate || reflexivity).
    rewrite (@ob K_saveImage (saving its)) by (discriminate || reflexivity).
    rewrite (@ob K_printImages (given its ["printimage"])) by (discriminate || reflexivity).
    rewrite (@ob K_saveExpandedImage (given its ["save-expanded"])) by (discriminate || reflexivity).
    rewrite (@ob K_saveAllFunctions (Opt_Spec.has its "output-functions")) by (discriminate || reflexivity).
    cbn [bind].
    rewrite (@HO K_outputImageName), (@HO K_functionRootName), (@HO K_timingIterations) by discriminate.
    cbn [meaning_of makeimage_meaning first_of oversampling_member making_member].
    rewrite !text_str. cbn [bind].
    change (match values its ["output"; "o"] with v :: _ => v | [] => wd "modelimage.fits" end) with (output_file its).
    change (match values its ["output-functions"] with v :: _ => v | [] => wd "" end) with root.
    assert (ET : exists n, as_int (Opt_Spec.count R its "timing" 0) = Ok n).
    { unfold Opt_Spec.count. destruct (values its ["timing"]); eexists; reflexivity. }
    destruct ET as (nt & ET). rewrite ET. cbn [bind]. fold WANTS.
    assert (EX : exists st', good m st' /\
       (if WANTS && negb (saving its) && negb (given its ["printimage"]) then Ok ([], initial NumR m garbage)
             else
             do st <- CreateModelImage NumR dft_r2c dft_c2r m (initial NumR m garbage) (sflat bs);
             do comments <- (if saving its then PrepareImageComments program o else Ok []);
             do out1 <- (if saving its then
                           do v <- GetModelImageVector m st; save_image (output_file its) (Z.of_nat w) (Z.of_nat h) v comments
                         else Ok []);
             do out2 <- (if saving its && given its ["save-expanded"] then
                           save_image (lit "expanded_" ++ output_file its) (Z.of_nat w + 2 * fst psz) (Z.of_nat h + 2 * snd psz)
                             (st_vec st) comments
                         else Ok []);
             do y <- (if saving its && Opt_Spec.has its "output-functions" then single_images NumR dft_r2c dft_c2r dec comments root (Z.of_nat w) (Z.of_nat h) m (B os) (sflat bs) st else Ok ([], st));
             Ok (out1 ++ out2 ++ fst y, snd y)) = Ok (images, st')).
    { unfold images. destruct (saving its) eqn:Esv.
      - rewrite andb_false_r. cbn [andb negb]. exists (if Opt_Spec.has its "output-functions" then st2 else st).
        split; [destruct (Opt_Spec.has its "output-functions"); assumption|].
        change (sflat bs) with (flat (map as_blk bs)). rewrite EC. cbn [bind]. rewrite prepare_ok. cbn [bind]. rewrite EG. cbn [bind].
        rewrite (@save_ok R _ w h model _ LM). cbn [bind].
        match goal with |- bind ?x _ = _ => assert (EE : x = Ok (if given its ["save-expanded"] then
                [PImage (wd "expanded_" ++ output_file its) (Z.of_nat (w + 2 * psf_cols ReadImage its)) (Z.of_nat (h + 2 * psf_rows ReadImage its)) (st_vec st) NOTES]
              else [])) end.
        { destruct (given its ["save-expanded"]) eqn:Ex; [|reflexivity]. rewrite (HX eq_refl eq_refl). cbn [fst snd].
          replace (Z.of_nat w + 2 * Z.of_nat (psf_cols ReadImage its))%Z with (Z.of_nat (w + 2 * psf_cols ReadImage its)) by lia.
          replace (Z.of_nat h + 2 * Z.of_nat (psf_rows ReadImage its))%Z with (Z.of_nat (h + 2 * psf_rows ReadImage its)) by lia.
          change (lit "expanded_") with (wd "expanded_"). exact (@save_ok R _ _ _ _ _ LW). }
        rewrite EE. cbn [bind]. unfold Opt_Spec.has, Start_Spec.first. unfold root in *.
        destruct (values its ["output-functions"]) as [|v t]; cbn [hd_error]; [|rewrite ES]; cbn [bind fst snd app]; reflexivity.
      - destruct (WANTS && negb false && negb (given its ["printimage"])).
        + eexists. split; [exact G0|reflexivity].
        + exists st. split; [exact G1|]. change (sflat bs) with (flat (map as_blk bs)). rewrite EC. reflexivity. }
    destruct EX as (st' & G' & EX). rewrite EX. cbn [bind].
    destruct (if WANTS then _ else _) as [t| | |]; cbn [bind]; try reflexivity.
    destruct (@timing_ok implement bs w h mp interp (psf_spec PSF) HB Hsz (HP _ _ _) Hw (Z.to_nat nt) st' G') as (s3 & E3).
    fold m in E3. change (sflat bs) with (flat (map as_blk bs)). rewrite E3. reflexivity.
  Qed.
End Run.

(** ---- the whole program ---- *)
Section Whole.
  Variable interpolator : Z -> list R -> nat -> nat -> R -> R -> R.
  Variable implement : word -> component R.
  Variable strtod : word -> R.
  Variable dbl : string -> R.
  Variable cores : Z.
  Variable FileExists : word -> bool.
  Variable ReadImage : word -> option (nat * nat * list R).
  Variable GetImageSize : word -> option (Z * Z).
  Variable ReadConfig : word -> option (list (word * word) * pout R).
  Variable log10 : R -> R.
  Variables e4 f4 f5 e3 g : R -> word.
  Variable dec : nat -> word.
  Variables timestamp program : word.
  Variables nThreads chunk : nat.
  Variable junk : Z * Z.
  Variable garbage : list (R -> R -> R).
  Variable its : list item.
  Variable ws : list word.
  Variable bs : list (sblock R).
  Variables w h : nat.
  Variable prog : word.
  Let RUN sched : res (Z * list (product R)) :=
    makeimage NumR dft_r2c dft_c2r interpolator implement strtod dbl cores FileExists ReadImage GetImageSize ReadConfig
      log10 e4 f4 f5 e3 g dec timestamp program nThreads chunk sched junk garbage (prog :: ws).
  Hypothesis HS : Sensible implement strtod dbl FileExists ReadImage GetImageSize ReadConfig e4 f4 f5 e3 g dec timestamp program its ws bs w h.
  Hypothesis HT : 0 < nThreads.
  Hypothesis HG : List.length garbage = List.length (sall bs).

  Let TABLES := Tables implement strtod log10 e4 f4 f5 e3 g timestamp program its bs.
  Let WANTS : bool := given its ["print-fluxes"] || Opt_Spec.has its "save-fluxes".

  Lemma estimation_pos : 1 <= estimation_size its.
  Proof.
    destruct (HS) as [_ (_ & _ & HA) _ _ _ _ _ _ _ _ _ _ _ _ _ _ _ _]. unfold estimation_size.
    specialize (HA Count ["estimation-size"]). destruct (values its ["estimation-size"]) as [|v t]; [lia|].
    assert (G : Forall (Good Count) (counted Count (v :: t))) by (apply HA; cbn; tauto).
    cbn in G. apply Forall_cons_iff in G. destruct G as [G _].
    pose proof (@Opt_Final.positive_nonzero v G) as N. apply Z.eqb_neq in N.
    destruct G as (G1 & G2 & G3 & G4). assert (0 <= integer v)%Z; [|lia]. clear - G1 G2.
    destruct v as [|c d]; [congruence|]. unfold integer.
    destruct (Ascii.eqb_spec c (ascii_of_nat 45)) as [->|_].
    - inversion G2; subst. unfold Dig in *. exfalso. revert H1. vm_compute. lia.
    - unfold decimal. assert (H : forall l a, Forall Dig l -> (0 <= a)%Z -> (0 <= fold_left (fun a c => (10 * a + (Z.of_nat (code c) - 48))%Z) l a)%Z).
      { clear. induction l as [|x l IH]; intros a H Ha; [exact Ha|]. inversion H; subst. cbn [fold_left]. apply IH; auto.
        unfold Dig in *. lia. }
      apply H; [exact G2|lia].
  Qed.

  Lemma run_ok : exists images, Images interpolator implement dec program ReadImage its bs w h images /\
    (WANTS = false -> forall sched, RUN sched = Ok (0%Z, images)) /\
    (WANTS = true -> (forall sched, RUN sched = Fuel \/ RUN sched = Ok (0%Z, images ++ TABLES)) /\
       exists sched, RUN sched = Ok (0%Z, images ++ TABLES)).
  Proof.
    destruct (HS) as [S1 S2 S3 S4 S5 S6 (cfg & po & EC & (D1 & D2 & D3 & D4 & D5) & SG & SZ) [S7 S8] S9 [_ S10] S11 [S12 S13] S14 S15 S16 S17 S18 S19].
    destruct (proj1 (@all_lines R strtod dbl cores Makeimage its ws prog S1) S2) as (o & E & D).
    destruct (proj1 (@config_size_whole R strtod dbl cores its cfg o D) SG) as (o' & E' & D').
    pose proof (@image_size_ok R strtod dbl cores GetImageSize its cfg o' SG S2 S9 D') as ESZ. rewrite SZ in ESZ.
    assert (HO : forall k, k <> K_nColumns -> k <> K_nRows -> o' k = @meaning_of R strtod dbl cores its Makeimage k).
    { intros k H1 H2. rewrite D'. unfold size_configured. destruct k; try reflexivity; congruence. }
    destruct (@setup_object_ok interpolator strtod dbl cores ReadImage its w h o' S7 S8 HO S4 S10 S11) as (mp & EM & HP).
    destruct (@built_ok interpolator implement ReadImage its bs S12 S13 S16 S14) as (os & EB & HM & HAF).
    destruct (HAF (mkModel [] [] w h mp (fun _ _ => 0%R) [])) as (interp & EA & HInt). cbn [mo_dataCols mo_dataRows mo_psf mo_regions] in EA.
    set (psz := match psf_file ReadImage its with Some (c, r, _) => (Z.of_nat c, Z.of_nat r) | None => junk end).
    destruct (@images_ok interpolator implement strtod dbl cores ReadImage log10 e4 f4 f5 e3 g dec timestamp program nThreads chunk garbage its bs w h o'
      S12 S13 S15 S16 S7 S8 HO S10 S11 S14 S17 S18 HG mp interp os psz HP HM HInt) as (images & HIm & EMk).
    { intros _ Hx. unfold psz. destruct (@psf_cases ReadImage its S10 S11) as [(X & _)|(n & c & r & p & _ & _ & _ & _ & X1 & X2 & _)].
      - exfalso. exact (S5 Hx X).
      - rewrite X1. unfold psf_cols, psf_rows. rewrite X2. reflexivity. }
    exists images. split; [exact HIm|].
    assert (ER : forall sched, RUN sched =
       do t <- (if WANTS then DetermineFluxes NumR implement log10 e4 f4 f5 e3 g timestamp program nThreads chunk sched o' 
              (mkBuilt os (flag_list (map as_blk bs)) (param_names bs) (List.length (param_names bs))) (sflat bs) else Ok []);
       Ok (0%Z, images ++ t)).
    { intros sched. unfold RUN, makeimage. rewrite E. cbn [bind]. rewrite D.
      assert (EA1 : as_str (meaning_of R strtod dbl cores its Makeimage K_configFileName) = Ok (config_file its)).
      { cbn [meaning_of makeimage_meaning first_of oversampling_member making_member]. unfold argument, config_file. destruct (positional its); reflexivity. }
      rewrite EA1. cbn [bind].
      assert (NN : no_nul (config_file its)) by (destruct S18 as ([_ NN] & _); exact NN).
      rewrite (Opt_Num.cstr_no_nul NN), S6. cbn [negb]. rewrite EC, E'. cbn [bind]. rewrite ESZ. cbn [bind].
      rewrite (@HO K_psfImagePresent), (@HO K_psfFileName), (@HO K_psfOversampling), (@HO K_psfOversampledImagePresent) by discriminate.
      cbn [meaning_of makeimage_meaning first_of oversampling_member as_bool bind].
      rewrite text_str. cbn [bind].
      assert (EO : Opt_Spec.has its "overpsf" = false) by (unfold Opt_Spec.has; now rewrite S4). rewrite EO. cbn [andb bind].
      assert (EP : (if Opt_Spec.has its "psf" then GetPsfImage ReadImage (match values its ["psf"] with v :: _ => v | [] => wd "" end) else None) = psf_file ReadImage its).
      { rewrite Start_Proof.psf_image. unfold Opt_Spec.has, psf_file, Start_Spec.first. destruct (values its ["psf"]); reflexivity. }
      rewrite EP.
      assert (EQ : Opt_Spec.has its "psf" && match psf_file ReadImage its with None => true | Some _ => false end = false).
      { destruct (@psf_cases ReadImage its S10 S11) as [(_ & -> & _)|(n & c & r & p & _ & _ & _ & _ & -> & _)]; [reflexivity|apply andb_false_r]. }
      rewrite EQ. cbn [bind]. rewrite EM. cbn [bind]. rewrite D1, D2, D3, D4, EB. cbn [bind]. change (0 <? 0)%Z with false. cbv iota.
      cbn [b_nParamsTot]. rewrite D5, (@names_count R bs S15), Nat.eqb_refl. cbn [negb]. rewrite <- (@names_count R bs S15). rewrite EA. cbn [bind].
      fold psz. rewrite EMk. fold WANTS. destruct (if WANTS then _ else _); reflexivity. }
    split.
    - intros HW sched. rewrite ER, HW. cbn [bind]. rewrite app_nil_r. reflexivity.
    - intros HW. destruct (S18) as (HC & _ & HL).
      assert (ob' : forall k, k <> K_nColumns -> k <> K_nRows -> o' k = @makeimage_meaning R strtod dbl cores its k) by (exact HO).
      destruct (@fluxes_ok implement strtod dbl log10 e4 f4 f5 e3 g dec timestamp program its bs
         (mkBuilt os (flag_list (map as_blk bs)) (param_names bs) (List.length (param_names bs))) o' nThreads chunk) as [F1 F2]; auto; try (rewrite ob' by discriminate; reflexivity).
      + exact (@as_blk_ok R bs S12 S13).
      + exact estimation_pos.
      + rewrite ob' by discriminate. cbn [makeimage_meaning first_of oversampling_member making_member]. unfold argument, config_file. destruct (positional its); reflexivity.
      + intros v Hv. destruct S3 as [_ S3]. specialize (S3 ["save-fluxes"]). rewrite Forall_forall in S3. auto.
      + split.
        * intros sched. rewrite ER, HW. destruct (F1 sched) as [F|F]; change (sflat bs) with (flat (map as_blk bs)); rewrite F; [left|right]; reflexivity.
        * destruct F2 as (sched & F). exists sched. rewrite ER, HW. change (sflat bs) with (flat (map as_blk bs)). rewrite F. reflexivity.
  Qed.
End Whole.

(** ---- runs that fail ---- *)
Lemma no_output (T : Type) (N : Num T) r2c c2r interpolator implement strtod dbl cores FileExists ReadImage GetImageSize ReadConfig log10 e4 f4 f5 e3 g dec
    timestamp progName nThreads chunk sched junk garbage argv z out :
  makeimage N r2c c2r interpolator implement strtod dbl cores FileExists ReadImage GetImageSize ReadConfig log10 e4 f4 f5 e3 g dec
    timestamp progName nThreads chunk sched junk garbage argv = Ok (z, out) -> z <> 0%Z -> out = [].
Proof.
  unfold makeimage. intros E Hz.
  repeat first
    [ progress (apply bind_Ok in E; let x := fresh "x" in let Ex := fresh "Ex" in destruct E as (x & Ex & E); cbv beta in E)
    | match type of E with
      | (if ?c then _ else _) = _ => destruct c
      | match ?x with _ => _ end = _ => destruct x
      | Ok _ = Ok _ => injection E; intros; subst; clear E
      end ]; try reflexivity; congruence.
Qed.

Section Refused.
  Variable interpolator : Z -> list R -> nat -> nat -> R -> R -> R.
  Variable implement : word -> component R.
  Variable strtod : word -> R.
  Variable dbl : string -> R.
  Variable cores : Z.
  Variable FileExists : word -> bool.
  Variable ReadImage : word -> option (nat * nat * list R).
  Variable GetImageSize : word -> option (Z * Z).
  Variable ReadConfig : word -> option (list (word * word) * pout R).
  Variable log10 : R -> R.
  Variables e4 f4 f5 e3 g : R -> word.
  Variable dec : nat -> word.
  Variables timestamp program : word.
  Variables nThreads chunk : nat.
  Variable sched : nat -> list nat.
  Variable junk : Z * Z.
  Variable garbage : list (R -> R -> R).
  Variable its : list item.
  Variable ws : list word.
  Variable prog : word.
  Let RUN : res (Z * list (product R)) :=
    makeimage NumR dft_r2c dft_c2r interpolator implement strtod dbl cores FileExists ReadImage GetImageSize ReadConfig
      log10 e4 f4 f5 e3 g dec timestamp program nThreads chunk sched junk garbage (prog :: ws).
  Hypothesis HS : Says makeimage_sheet its ws.
  Hypothesis HC : clean its.

  Lemma run_refused : Refused makeimage_sheet its -> RUN = Ok (1%Z, []).
  Proof. intros H. unfold RUN, makeimage. rewrite (proj2 (@all_lines R strtod dbl cores Makeimage its ws prog HS) H). reflexivity. Qed.

  Hypothesis HA : Accepted makeimage_sheet its.
  Lemma config_clean : no_nul (config_file its).
  Proof.
    destruct HC as [H _]. unfold config_file. destruct (positional its) as [|a l]; [intros []|]. inversion H; subst. assumption.
  Qed.
  Lemma run_start : exists o, (forall k, o k = @meaning_of R strtod dbl cores its Makeimage k) /\
    options_of R strtod dbl cores Makeimage (prog :: ws) = Ok (Run o) /\ as_str (o K_configFileName) = Ok (config_file its) /\
    c_str (config_file its) = config_file its.
  Proof.
    destruct (proj1 (@all_lines R strtod dbl cores Makeimage its ws prog HS) HA) as (o & E & D). exists o. split; [exact D|]. split; [exact E|]. split.
    - rewrite D. cbn [meaning_of makeimage_meaning first_of oversampling_member making_member]. unfold argument, config_file. destruct (positional its); reflexivity.
    - exact (Opt_Num.cstr_no_nul config_clean).
  Qed.
  Lemma run_no_config : FileExists (config_file its) = false \/ ReadConfig (config_file its) = None -> RUN = Ok ((-1)%Z, []).
  Proof.
    intros H. destruct run_start as (o & D & E & EC & EN). unfold RUN, makeimage. rewrite E. cbn [bind]. rewrite EC. cbn [bind]. rewrite EN.
    destruct H as [H|H]; [rewrite H; reflexivity|]. destruct (FileExists (config_file its)); cbn [negb]; [rewrite H|]; reflexivity.
  Qed.
  Hypothesis HF : FileExists (config_file its) = true.
  Variable cfg : list (word * word).
  Variable po : pout R.
  Hypothesis HR : ReadConfig (config_file its) = Some (cfg, po).
  Lemma run_bad_size : (forall v, SizeLine its cfg v -> Good Count v \/ Bad Count v) -> (exists v, SizeLine its cfg v /\ Bad Count v) -> RUN = Ok (1%Z, []).
  Proof.
    intros H1 H2. destruct run_start as (o & D & E & EC & EN). unfold RUN, makeimage. rewrite E. cbn [bind]. rewrite EC. cbn [bind]. rewrite EN, HF, HR. cbn [negb].
    rewrite (proj2 (@config_size_whole R strtod dbl cores its cfg o D) H1 H2). reflexivity.
  Qed.
  Hypothesis HG : forall v, SizeLine its cfg v -> Good Count v.
  Hypothesis HE : GetImageSize [] = None.
  Lemma run_no_size z : size_wanted GetImageSize its cfg = End_ z -> RUN = Ok (z, []).
  Proof.
    intros H. destruct run_start as (o & D & E & EC & EN). unfold RUN, makeimage. rewrite E. cbn [bind]. rewrite EC. cbn [bind]. rewrite EN, HF, HR. cbn [negb].
    destruct (proj1 (@config_size_whole R strtod dbl cores its cfg o D) HG) as (o' & E' & D'). rewrite E'. cbn [bind].
    rewrite (@image_size_ok R strtod dbl cores GetImageSize its cfg o' HG HA HE D'), H. reflexivity.
  Qed.

  Variable bs : list (sblock R).
  Variables w h : nat.
  Hypothesis HD : Describes bs po.
  Hypothesis HZ : size_wanted GetImageSize its cfg = Size (Z.of_nat w) (Z.of_nat h).
  Hypothesis Hw : 1 <= w.
  Hypothesis Hh : 1 <= h.
  Hypothesis HNO : values its ["overpsf"] = [].
  Hypothesis HRd : reader FileExists ReadImage.
  Hypothesis Hbs : bs <> [].
  Hypothesis Hfs : Forall (fun b => s_funcs b <> []) bs.

  Lemma run_bad_model :
    (exists n, Start_Spec.first its "psf" = Some n /\ ~ PsfUsable NumR ReadImage its n) \/
    ~ Buildable (psf_size ReadImage its) (sall bs) \/ List.length (sflat bs) <> List.length (param_names bs) ->
    RUN = Ok ((-1)%Z, []).
  Proof.
    intros H. destruct run_start as (o & D & E & EC & EN). unfold RUN, makeimage. rewrite E. cbn [bind]. rewrite EC. cbn [bind]. rewrite EN, HF, HR. cbn [negb].
    destruct (proj1 (@config_size_whole R strtod dbl cores its cfg o D) HG) as (o' & E' & D'). rewrite E'. cbn [bind].
    rewrite (@image_size_ok R strtod dbl cores GetImageSize its cfg o' HG HA HE D'), HZ. cbn [bind].
    assert (HO : forall k, k <> K_nColumns -> k <> K_nRows -> o' k = @meaning_of R strtod dbl cores its Makeimage k).
    { intros k H1 H2. rewrite D'. unfold size_configured. destruct k; try reflexivity; congruence. }
    pose proof (@setup_object_ok interpolator strtod dbl cores ReadImage its w h o' Hw Hh HO HNO) as SO.
    rewrite (@HO K_psfImagePresent), (@HO K_psfFileName), (@HO K_psfOversampling), (@HO K_psfOversampledImagePresent) by discriminate.
    cbn [meaning_of makeimage_meaning first_of oversampling_member as_bool bind].
    rewrite text_str. cbn [bind].
    assert (EO : Opt_Spec.has its "overpsf" = false) by (unfold Opt_Spec.has; now rewrite HNO). rewrite EO. cbn [andb bind].
    assert (EP : (if Opt_Spec.has its "psf" then GetPsfImage ReadImage (match values its ["psf"] with v :: _ => v | [] => wd "" end) else None) = psf_file ReadImage its).
    { rewrite Start_Proof.psf_image. unfold Opt_Spec.has, psf_file, Start_Spec.first. destruct (values its ["psf"]); reflexivity. }
    rewrite EP. destruct HRd as [_ HRi].
    assert (DEC : (forall n, Start_Spec.first its "psf" = Some n -> PsfUsable NumR ReadImage its n) \/
      exists n, Start_Spec.first its "psf" = Some n /\ Opt_Spec.has its "psf" = true /\
        (psf_file ReadImage its = None \/ exists c r p, psf_file ReadImage its = Some (c, r, p) /\ 1 <= c /\ 1 <= r /\ List.length p = c * r /\
           given its ["no-normalize"] = false /\ Rleb (total p) 0 = true)).
    { destruct (Start_Spec.first its "psf") as [n|] eqn:En; [|left; congruence].
      unfold psf_file. rewrite En. assert (EH : Opt_Spec.has its "psf" = true).
      { unfold Opt_Spec.has. unfold Start_Spec.first in En. destruct (values its ["psf"]); [discriminate|reflexivity]. }
      unfold PsfUsable, Start_Spec.pixels. destruct (ReadImage n) as [[[c r] p]|] eqn:ER.
      2:{ right. exists n. split; [reflexivity|]. split; [exact EH|]. left. reflexivity. }
      destruct (HRi n c r p ER) as (H1 & H2 & H3).
      assert (TF : forall X : bool, X = true \/ X = false) by (intros []; auto).
      assert (NF : forall l : list R, forallb (nfin NumR) l = true) by (induction l; auto).
      destruct (TF (given its ["no-normalize"])) as [N|N].
      - left. intros n' En'. injection En' as <-. rewrite ER. split; [discriminate|]. split; [apply NF|auto].
      - destruct (TF (Rleb (total p) 0)) as [B|B].
        + right. exists n. split; [reflexivity|]. split; [exact EH|]. right. exists c, r, p. auto 10.
        + left. intros n' En'. injection En' as <-. rewrite ER. split; [discriminate|]. split; [apply NF|]. right.
          change (Rleb (fold_left Rplus p 0%R) 0 = false). rewrite fold_total. exact B. }
    destruct DEC as [HPU|(n & En & EH & [EF|(c & r & p & EF & H1 & H2 & H3 & HN & HB)])].
    - assert (EQ : Opt_Spec.has its "psf" && match psf_file ReadImage its with None => true | Some _ => false end = false).
      { destruct (@psf_cases ReadImage its HRi HPU) as [(_ & -> & _)|(n & c & r & p & _ & _ & _ & _ & -> & _)]; [reflexivity|apply andb_false_r]. }
      rewrite EQ. cbn [bind]. destruct (SO HRi HPU) as (mp & EM & _). rewrite EM. cbn [bind].
      destruct HD as (D1 & D2 & D3 & D4 & D5). rewrite D1, D2, D3, D4, D5.
      assert (EL : option_map (fun p : list R * nat * nat => (Z.of_nat (snd (fst p)), Z.of_nat (snd p))) (local_psf ReadImage its) = psf_size ReadImage its).
      { unfold local_psf, psf_size, psf_spec. destruct (psf_used ReadImage its); reflexivity. }
      rewrite EL.
      destruct (@add_functions_ok R (psf_size ReadImage its) bs Hbs Hfs) as [(s & Hs & EB & _)|(os & EB & HB & _)]; rewrite EB; cbn [bind]; [reflexivity|].
      change (0 <? 0)%Z with false. cbv iota. cbn [b_nParamsTot].
      destruct H as [(n & En & HN)|[HN|HN]]; [destruct (HN (HPU n En))|contradiction|].
      replace (List.length (param_names bs) =? List.length (sflat bs)) with false by (symmetry; apply Nat.eqb_neq; auto). reflexivity.
    - rewrite EH, EF. reflexivity.
    - rewrite EH, EF. cbn [andb bind]. unfold SetupModelObject.
      rewrite (@ob strtod dbl cores its o' HO K_psfImagePresent (Opt_Spec.has its "psf")) by (discriminate || reflexivity).
      rewrite (@ob strtod dbl cores its o' HO K_normalizePSF (negb (given its ["no-normalize"]))) by (discriminate || reflexivity).
      rewrite EH, HN. cbn [bind negb]. rewrite <- H3. rewrite (@AddPSFVector_exact p c r _ false H1 H2 H3). rewrite HB. reflexivity.
  Qed.
End Refused.
