(** Proofs for C76: the images that makeimage writes. *)
From Coq Require Import ZArith List Bool Ascii String Reals Lia Lra.
From Verif Require Import Base Num Sums Params_Model Params_Spec Params_Proof Conv_Model Conv_Spec Image_Model Image_Spec Image_Proof Image_History Par_Model
  CmdLine_Spec Opt_Spec Opt_Num Start_Spec Config_Model Build_Spec Build_Proof Save_Spec.
From Verif Require Import StrUtil_Model Save_Model Opt_Model Start_Model Make_Model Make_Spec.
From Verif Require Save_Proof.
Import ListNotations.
Local Open Scope string_scope.
Local Open Scope list_scope.
Local Open Scope nat_scope.
Set Implicit Arguments.
Unset Strict Implicit.

(** ---- texts ---- *)
Lemma no_nul_app a b : no_nul (a ++ b) <-> no_nul a /\ no_nul b.
Proof. unfold no_nul. rewrite in_app_iff. tauto. Qed.
Lemma no_nul_wd s : existsb (Ascii.eqb (ascii_of_nat 0)) (wd s) = false -> no_nul (wd s).
Proof.
  intros H Hin. assert (X : existsb (Ascii.eqb (ascii_of_nat 0)) (wd s) = true); [|congruence].
  apply existsb_exists. exists (ascii_of_nat 0). split; [exact Hin|apply Ascii.eqb_refl].
Qed.
Lemma print_le s : List.length s <= 1023 -> PrintToString s = Ok s.
Proof. intros H. apply Save_Proof.print_short. lia. Qed.
Lemma class_short c : In c classes -> Short 40 (c_name c).
Proof.
  assert (H : forallb (fun c => (List.length (c_name c) <=? 40) && negb (existsb (Ascii.eqb (ascii_of_nat 0)) (c_name c))) classes = true)
    by (vm_compute; reflexivity).
  rewrite forallb_forall in H. intros Hc. specialize (H c Hc). apply andb_prop in H. destruct H as [H1 H2].
  split; [now apply Nat.leb_le|]. intros Hin. apply negb_true_iff in H2.
  assert (X : existsb (Ascii.eqb (ascii_of_nat 0)) (c_name c) = true); [|congruence].
  apply existsb_exists. exists (ascii_of_nat 0). split; [exact Hin|apply Ascii.eqb_refl].
Qed.

Lemma save_ok (T : Type) name w h (pix : list T) notes : List.length pix = w * h ->
  save_image name (Z.of_nat w) (Z.of_nat h) pix notes = Ok [PImage name (Z.of_nat w) (Z.of_nat h) pix notes].
Proof.
  intros L. unfold save_image.
  replace (Z.of_nat w <? 0)%Z with false by (symmetry; apply Z.ltb_ge; lia).
  replace (Z.of_nat h <? 0)%Z with false by (symmetry; apply Z.ltb_ge; lia). cbn [orb].
  replace (Z.of_nat (List.length pix) <? Z.of_nat w * Z.of_nat h)%Z with false by (symmetry; apply Z.ltb_ge; lia).
  replace (Z.to_nat (Z.of_nat w * Z.of_nat h)) with (List.length pix) by lia. now rewrite firstn_all.
Qed.
Lemma combine_firstn_S {A} (l : list A) i x : nth_error l i = Some x ->
  combine (seq 0 (S i)) (firstn (S i) l) = combine (seq 0 i) (firstn i l) ++ [(i, x)].
Proof.
  intros H. assert (L : i < List.length l) by (apply nth_error_Some; congruence).
  rewrite seq_S. replace (firstn (S i) l) with (firstn i l ++ [x]).
  - rewrite Build_Proof.combine_app; [reflexivity|]. rewrite seq_length, firstn_length. lia.
  - revert l H L. induction i as [|i IH]; intros [|y l] H L; cbn in *; try lia; [congruence|]. f_equal. apply IH; auto. lia.
Qed.
Lemma combine_seq_lt {A} (l : list A) i j x : In (j, x) (combine (seq 0 i) l) -> j < i.
Proof. intros H. apply in_combine_l in H. apply in_seq in H. lia. Qed.

Section Images.
  Variable implement : word -> component R.
  Variable dec : nat -> word.
  Variable bs : list (sblock R).
  Variables w h : nat.
  Variable mp : option (nat * nat * plan R).
  Variable interp : R -> R -> R.
  Variable psf : option (list R * nat * nat).
  Variable b : built.
  Let fs := functions implement bs.
  Let es := places bs.
  Let m : model R := mkModel fs (flag_list (map as_blk bs)) w h mp interp [].
  Hypothesis HB : blocks_ok (map as_blk bs).
  Hypothesis Hf : map (@fn_nParams R) fs = sizes (map as_blk bs).
  Hypothesis HP : psf_ok m psf.
  Hypothesis Hw : 1 <= w.
  Hypothesis Hh : 1 <= h.
  Hypothesis HM : Forall2 MadeFrom (Build_Model.b_funcs b) (sall bs).
  Hypothesis HD : forall n, Short 20 (dec n).
  Hypothesis HL : Forall (fun f => Short 900 (s_label f)) (sall bs).

  Lemma n_funcs : List.length (Build_Model.b_funcs b) = List.length (sall bs).
  Proof. exact (Forall2_len HM). Qed.
  Lemma n_fs : List.length fs = List.length (sall bs).
  Proof. unfold fs, functions. apply map_length. Qed.
  Lemma n_es : List.length es = List.length fs.
  Proof. exact (@funcs_length m (map as_blk bs) Hf). Qed.
  Lemma nth_made i f : nth_error (sall bs) i = Some f ->
    exists o, nth_error (Build_Model.b_funcs b) i = Some o /\ MadeFrom o f.
  Proof.
    intros E. destruct (Forall2_nth_error HM) as (L & F). destruct (F i) as (o & g & E1 & E2 & M).
    - rewrite L. apply nth_error_Some. congruence.
    - exists o. split; auto. congruence.
  Qed.
  Lemma label_short i f : nth_error (sall bs) i = Some f -> Short 900 (s_label f).
  Proof. intros E. rewrite Forall_forall in HL. apply HL. eapply nth_error_In; eauto. Qed.

  Lemma singles_ok notes root st : Short 900 root -> good m st ->
    exists single st', single_images NumR dft_r2c dft_c2r dec notes root (Z.of_nat w) (Z.of_nat h) m b (flat (map as_blk bs)) st =
        Ok (map (fun '(i, f) => PImage (function_file dec root i f) (Z.of_nat w) (Z.of_nat h) (single i) (notes ++ [function_note f]))
              (combine (seq 0 (List.length (sall bs))) (sall bs)), st') /\
      good m st' /\
      forall i f e, nth_error fs i = Some f -> nth_error es i = Some e ->
        Shows w h (single i) (image_pixel psf interp [f] [e]).
  Proof.
    intros [HR1 HR2] G. unfold single_images. rewrite n_funcs.
    set (row := fun (single : nat -> list R) '(i, f) =>
       PImage (function_file dec root i f) (Z.of_nat w) (Z.of_nat h) (single i) (notes ++ [function_note f])).
    match goal with |- context [for_ ?n ?body ?s0] =>
      destruct (@for_inv (list (product R) * state R) (fun i x => good m (snd x) /\ exists single : nat -> list R,
        fst x = map (row single) (combine (seq 0 i) (firstn i (sall bs))) /\
        forall j f e, j < i -> nth_error fs j = Some f -> nth_error es j = Some e -> Shows w h (single j) (image_pixel psf interp [f] [e]))
        body n s0) as (x & E & G' & single & E1 & V) end.
    - split; [exact G|]. exists (fun _ => []). split; [reflexivity|]. intros; lia.
    - intros i [out s] Hi (Gs & single & Eo & V). cbn [fst snd] in *.
      destruct (nth_error (sall bs) i) as [f|] eqn:Ef; [|apply nth_error_None in Ef; lia].
      destruct (nth_made Ef) as (o & Eo' & [[M1 M1'] M2 _]).
      assert (Efs : nth_error fs i = Some (co_func (implement (s_name f)))) by (unfold fs, functions; now rewrite nth_error_map, Ef).
      destruct (nth_error es i) as [e|] eqn:Ee; [|apply nth_error_None in Ee; rewrite n_es, n_fs in Ee; lia].
      destruct (@single_ok m (map as_blk bs) psf HB Hf eq_refl HP Hw eq_refl s i _ e Gs Efs Ee) as (s' & pix & Es & Gs' & Lp & Vp).
      rewrite Es. cbn [bind]. unfold get. rewrite Eo'. cbn [bind]. rewrite M1'.
      assert (SN : Short 40 (s_name f)) by (rewrite <- M1'; now apply class_short). destruct SN as [SN1 SN2].
      rewrite (Opt_Num.cstr_no_nul SN2), (Opt_Num.cstr_no_nul HR2).
      destruct (HD (S i)) as [D1 D2].
      rewrite print_le by (rewrite !app_length; change (List.length (lit "_")) with 1; change (List.length (lit ".fits")) with 5; lia).
      cbn [bind].
      assert (EN : lit "FUNCTION " ++ s_name f = wd "FUNCTION " ++ s_name f) by reflexivity. rewrite EN.
      rewrite print_le by (rewrite app_length; change (List.length (wd "FUNCTION ")) with 9; lia). cbn [bind].
      destruct (label_short Ef) as [L1 L2].
      assert (N1 : no_nul (wd "FUNCTION " ++ s_name f)) by (apply no_nul_app; split; [apply no_nul_wd; reflexivity|exact SN2]).
      assert (EH : (match fo_label o with
                    | [] => Ok (wd "FUNCTION " ++ s_name f)
                    | l => PrintToString (c_str (wd "FUNCTION " ++ s_name f) ++ lit " # LABEL " ++ c_str l) end) = Ok (function_note f)).
      { rewrite M2. unfold function_note. destruct (s_label f) as [|a l] eqn:El; [now rewrite app_nil_r|].
        rewrite (Opt_Num.cstr_no_nul N1), (Opt_Num.cstr_no_nul L2). change (lit " # LABEL ") with (wd " # LABEL ").
        rewrite print_le; [now rewrite <- app_assoc|].
        rewrite !app_length. change (List.length (wd "FUNCTION ")) with 9. change (List.length (wd " # LABEL ")) with 9. lia. }
      rewrite EH. cbn [bind]. cbn [mo_dataCols mo_dataRows m] in Lp, Vp. rewrite (@save_ok R _ w h pix _ Lp). cbn [bind].
      eexists. split; [reflexivity|]. cbn [fst snd]. split; [exact Gs'|].
      exists (fun j => if j =? i then pix else single j). split.
      + rewrite (combine_firstn_S Ef), map_app. f_equal.
        * rewrite Eo. apply map_ext_in. intros [j g] Hj. apply combine_seq_lt in Hj. cbn.
          replace (j =? i) with false by (symmetry; apply Nat.eqb_neq; lia). reflexivity.
        * cbn. rewrite Nat.eqb_refl. unfold function_file. rewrite Nat.add_1_r. reflexivity.
      + intros j f' e' Hj Ef' Ee'. destruct (Nat.eqb_spec j i) as [->|Hn].
        * rewrite Efs in Ef'. injection Ef' as <-. rewrite Ee in Ee'. injection Ee' as <-. split; [exact Lp|exact Vp].
        * apply V; auto. lia.
    - destruct x as [out s']. cbn [fst snd] in *. exists single, s'. split; [|split].
      + exact (eq_trans E (f_equal (@Ok _) (f_equal (fun o => (o, s')) (eq_trans E1 (f_equal (fun l => map (row single) (combine _ l)) (firstn_all (sall bs))))))).
      + exact G'.
      + intros i f e Ef Ee. apply V; auto. rewrite <- n_fs. apply nth_error_Some. congruence.
  Qed.

  (** a number of further images change nothing *)
  Lemma timing_ok n st : good m st -> exists st', for_ n (fun _ st => CreateModelImage NumR dft_r2c dft_c2r m st (flat (map as_blk bs))) st = Ok st'.
  Proof.
    intros G. destruct (@for_inv (state R) (fun _ s => good m s) (fun _ st => CreateModelImage NumR dft_r2c dft_c2r m st (flat (map as_blk bs))) n st G) as (s' & E & _).
    - intros i s _ Gs. destruct (@create_ok m (map as_blk bs) psf HB Hf eq_refl HP Hw eq_refl s Gs) as (s1 & out & E & G1 & _). eauto.
    - eauto.
  Qed.
End Images.
