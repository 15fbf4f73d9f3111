(** Property C67: the file of best-fit parameters can be read back. *)
From Coq Require Import Ascii String List ZArith Reals Lra Lia.
From Verif Require Import Base Num StrUtil_Model StrUtil_Spec Config_Spec Config_Model Config_Proof Params_Spec Build_Model Save_Model.
From Verif Require Import Save_Spec Build_Spec Build_Proof Save_Proof Save_Final Save_Printf.
Import ListNotations.
Local Open Scope list_scope.

(** C67: the text SaveParameters writes for a model is accepted by the configuration
    reader of imfit and imfit-mcmc and by that of makeimage. Functions, labels, blocks
    and the optional parameters the function objects remember are those of the model;
    each centre is read back, in coordinates of the full image, correct to four
    decimals, every other parameter to six significant digits; no limits are read. The
    text is produced without undefined behaviour. It holds with and without errors,
    for any comment lines as header and any report lines. *)
Theorem C67_save :
  forall (T : Type) (N : Num T) (toR : T -> R) (finite : T -> Prop) (f4 g g5 : T -> str)
         (strtod : str -> T) (IsNumeric : str -> bool)
         (psf : option (Z * Z)) (bs : list (sblock T)) m offX offY errs header report,
  PrintfOK toR finite f4 g g5 -> AcceptsDecimals IsNumeric ->
  AddFunctions psf (map s_name (sall bs)) (map s_label (sall bs)) (sstarts bs) (map s_opts (sall bs)) = Ok (0%Z, Some m) ->
  GoodModel bs -> AllFinite finite (nadd N) offX offY bs -> ErrorsFor errs bs ->
  Forall Comment header -> Forall OneLine report ->
  exists txt, SaveParameters N f4 g g5 header report m offX offY (sflat bs) errs = Ok txt /\
    (exists out, ReadConfigFile_full N strtod IsNumeric (file_lines txt) true [] = Ok (0%Z, Some (out, [])) /\
       ReadBack toR (nadd N) (nofZ N 0) strtod offX offY bs out) /\
    (forall opt0, exists out, ReadConfigFile_limited N strtod IsNumeric (file_lines txt) true opt0 = Ok (0%Z, Some (out, [])) /\
       ReadBack toR (nadd N) (nofZ N 0) strtod offX offY bs out).
Proof. exact save_read. Qed.
Print Assumptions C67_save.

(** C67: the model built from what was read is the model that was saved: same
    functions, labels, interpolation methods and interpolators, same parameter names
    and blocks (no PointSourceRot having been given optional parameters). *)
Theorem C67_rebuild :
  forall (T : Type) (toR : T -> R) (add : T -> T -> T) (zero : T) (strtod : str -> T)
         (psf : option (Z * Z)) (bs : list (sblock T)) m offX offY out,
  AddFunctions psf (map s_name (sall bs)) (map s_label (sall bs)) (sstarts bs) (map s_opts (sall bs)) = Ok (0%Z, Some m) ->
  GoodModel bs -> Forall (fun f => s_name f = PSR -> s_opts f = []) (sall bs) ->
  ReadBack toR add zero strtod offX offY bs out ->
  exists m', AddFunctions psf (o_names out) (o_labels out) (o_starts out) (o_opt out) = Ok (0%Z, Some m') /\ SameModel m m'.
Proof. exact read_rebuild. Qed.
Print Assumptions C67_rebuild.

(** C67: with the prefix "#", as used for the bootstrap output file, every line of the
    text is a comment. *)
Theorem C67_commented :
  forall (T : Type) (N : Num T) (toR : T -> R) (finite : T -> Prop) (f4 g g5 : T -> str)
         (psf : option (Z * Z)) (bs : list (sblock T)) m offX offY header,
  PrintfOK toR finite f4 g g5 ->
  AddFunctions psf (map s_name (sall bs)) (map s_label (sall bs)) (sstarts bs) (map s_opts (sall bs)) = Ok (0%Z, Some m) ->
  GoodModel bs -> AllFinite finite (nadd N) offX offY bs -> Forall Comment header ->
  exists txt, SaveParameters2 N f4 g g5 header m offX offY (sflat bs) (lit "#") = Ok txt /\ Forall Ignorable (file_lines txt).
Proof. exact save_commented. Qed.
Print Assumptions C67_commented.

(** ---- what does not hold ---- *)
Definition numericb (s : str) : bool :=
  match s with [] => false | _ => forallb (fun c => existsb (ch_eqb c) (lit "0123456789.+-e")) s end.
Definition one4 (T : Type) (_ : T) : str := lit "1.0000".

(** Refuted without the condition on PointSourceRot: its optional parameters are not
    remembered, the file has an empty section, and the model read back interpolates
    with the default method. *)
Theorem C67_method_lost_refuted : forall (T : Type) (N : Num T) (strtod : str -> T) (v : T),
  exists (bs : list (sblock T)) m txt out m' o o',
  AddFunctions (Some (15, 15)%Z) (map s_name (sall bs)) (map s_label (sall bs)) (sstarts bs) (map s_opts (sall bs)) = Ok (0%Z, Some m) /\
  SaveParameters N (one4 T) (one4 T) (one4 T) [] [] m v v (sflat bs) None = Ok txt /\
  ReadConfigFile_full N strtod numericb (file_lines txt) true [] = Ok (0%Z, Some (out, [])) /\
  AddFunctions (Some (15, 15)%Z) (o_names out) (o_labels out) (o_starts out) (o_opt out) = Ok (0%Z, Some m') /\
  Build_Model.b_funcs m = [o] /\ Build_Model.b_funcs m' = [o'] /\
  fo_interp o = Some 2%Z /\ fo_interp o' = Some 1%Z.
Proof.
  intros T N sd v.
  pose (bs := [mkSblock v v [mkSfunc (lit "PointSourceRot") [] [(lit "method", lit "lanczos2")] [v; v]]]).
  exists bs.
  let r := eval vm_compute in (AddFunctions (Some (15, 15)%Z) (map s_name (sall bs)) (map s_label (sall bs)) (sstarts bs) (map s_opts (sall bs))) in
  match r with Ok (_, Some ?m) => exists m;
    let r2 := eval vm_compute in (SaveParameters N (one4 T) (one4 T) (one4 T) [] [] m v v (sflat bs) None) in
    match r2 with Ok ?t => exists t;
      let r3 := eval vm_compute in (ReadConfigFile_full N sd numericb (file_lines t) true []) in
      match r3 with Ok (_, Some (?out, _)) => exists out;
        let r4 := eval vm_compute in (AddFunctions (Some (15, 15)%Z) (o_names out) (o_labels out) (o_starts out) (o_opt out)) in
        match r4 with Ok (_, Some ?m') => exists m' end
      end
    end
  end.
  eexists. eexists. repeat split; vm_compute; reflexivity.
Qed.
Print Assumptions C67_method_lost_refuted.

(** Refuted without the condition on labels: a label with the text "X0" in it makes
    the file unreadable. *)
Theorem C67_label_refuted : forall (T : Type) (N : Num T) (strtod : str -> T) (v : T),
  exists (bs : list (sblock T)) m txt s r,
  AddFunctions None (map s_name (sall bs)) (map s_label (sall bs)) (sstarts bs) (map s_opts (sall bs)) = Ok (0%Z, Some m) /\
  map s_label (sall bs) = [lit "near X0"] /\
  SaveParameters N (one4 T) (one4 T) (one4 T) [] [] m v v (sflat bs) None = Ok txt /\
  ReadConfigFile_full N strtod numericb (file_lines txt) true [] = Ok (s, r) /\ (s < 0)%Z.
Proof.
  intros T N sd v.
  pose (bs := [mkSblock v v [mkSfunc (lit "FlatSky") (lit "near X0") [] [v]]]).
  exists bs.
  let r := eval vm_compute in (AddFunctions None (map s_name (sall bs)) (map s_label (sall bs)) (sstarts bs) (map s_opts (sall bs))) in
  match r with Ok (_, Some ?m) => exists m;
    let r2 := eval vm_compute in (SaveParameters N (one4 T) (one4 T) (one4 T) [] [] m v v (sflat bs) None) in
    match r2 with Ok ?t => exists t end
  end.
  eexists. eexists. split; [vm_compute; reflexivity|]. split; [reflexivity|]. split; [vm_compute; reflexivity|].
  split; [vm_compute; reflexivity|reflexivity].
Qed.
Print Assumptions C67_label_refuted.

(** ---- a case that meets the hypotheses ---- *)
Definition exS : list (sblock R) :=
  [mkSblock 32.25%R 40%R
     [mkSfunc (lit "PointSource") (lit "the nucleus") [(lit "method", lit "Lanczos3")] [1234.5%R];
      mkSfunc (lit "Exponential") [] [] [45%R; 0.3%R; 0%R; 12.125%R]];
   mkSblock 100%R 2%R [mkSfunc (lit "FlatSky") (lit "sky") [] [(-2.5)%R]]].

Lemma word_good w : word_b w = true -> clearb w = true -> oneline_b w = true -> (List.length w <= 400) -> GoodWord w.
Proof.
  intros H1 H2 H3 H4. destruct (word_true H1) as [Hn HF]. apply clearb_true in H2. apply oneline_true in H3.
  split; [exact Hn|]. split; [exact H4|]. split; [|apply Clear_PosLine; exact H2].
  unfold OneLine in H3. rewrite Forall_forall in *. intros c Hc. specialize (HF c Hc). specialize (H3 c Hc). tauto.
Qed.
Lemma mod_num (n : Z) (d : Z) : (1 <= n < 10 ^ 10)%Z -> (1 <= d < 10 ^ 10)%Z -> moderate (IZR n / IZR d)%R /\ moderate (- (IZR n / IZR d))%R.
Proof.
  intros Hn Hd.
  assert (P : (0 < IZR n / IZR d)%R) by (apply Rdiv_lt_0_compat; apply IZR_lt; lia).
  assert (B : (/ IZR (10 ^ 20) <= IZR n / IZR d < IZR (10 ^ 20))%R).
  { assert (0 < IZR d)%R by (apply IZR_lt; lia). assert (0 < IZR (10 ^ 20))%R by (apply IZR_lt; reflexivity).
    split.
    - apply Rmult_le_reg_r with (IZR d * IZR (10 ^ 20))%R; [apply Rmult_lt_0_compat; auto|].
      replace (/ IZR (10 ^ 20) * (IZR d * IZR (10 ^ 20)))%R with (IZR d) by (field; lra).
      replace (IZR n / IZR d * (IZR d * IZR (10 ^ 20)))%R with (IZR n * IZR (10 ^ 20))%R by (field; lra).
      rewrite <- mult_IZR. apply IZR_le. assert (10 ^ 10 <= 10 ^ 20)%Z by (vm_compute; discriminate). nia.
    - apply Rmult_lt_reg_r with (IZR d); auto. unfold Rdiv. rewrite Rmult_assoc, Rinv_l, Rmult_1_r by lra.
      rewrite <- mult_IZR. apply IZR_lt. assert (10 ^ 10 <= 10 ^ 20)%Z by (vm_compute; discriminate). nia. }
  split; right; [|rewrite Rabs_Ropp]; rewrite Rabs_pos_eq by lra; exact B.
Qed.

Example C67_hyp_example :
  PrintfOK (fun v => v) moderate f4R gR gR /\
  AcceptsDecimals (fun s => numericb s) /\
  (exists m, AddFunctions (Some (15, 15)%Z) (map s_name (sall exS)) (map s_label (sall exS)) (sstarts exS) (map s_opts (sall exS)) = Ok (0%Z, Some m)) /\
  GoodModel exS /\ AllFinite moderate Rplus 100%R 200%R exS /\
  ErrorsFor (Some (repeat 1%R 10)) exS /\ Forall Comment [lit "# imfit best-fit parameters"] /\
  Forall OneLine [lit "Algorithm: Levenberg-Marquardt"; lit "Fit statistic: chi^2"] /\
  Forall (fun f => s_name f = PSR -> s_opts f = []) (sall exS).
Proof.
  split; [exact printfR|]. split.
  { intros s r D. apply Decimal_chars in D. destruct D as [HF Hn]. unfold numericb. destruct s as [|c s]; [congruence|].
    apply forallb_forall. intros x Hx. rewrite Forall_forall in HF. specialize (HF x Hx). unfold NumChar in HF.
    apply existsb_exists. exists x. split; [|unfold ch_eqb; apply Ascii.eqb_refl].
    change (lit "0123456789.+-e") with (list_ascii_of_string "0123456789.+-e"). cbn [list_ascii_of_string In] in *. tauto. }
  split; [eexists; vm_compute; reflexivity|]. split; [|split; [|split; [reflexivity|split; [|split]]]].
  - split; [discriminate|]. split; [repeat constructor; discriminate|].
    assert (K : forall n (vs : list R), match find_class classes n with Some c => Nat.eqb (List.length vs) (List.length (c_params c)) | None => false end = true ->
       exists c, In c classes /\ c_name c = n /\ List.length vs = List.length (c_params c)).
    { intros n vs H. destruct (find_class classes n) as [c|] eqn:E; [|discriminate]. exists c. apply find_class_sound in E. destruct E.
      apply Nat.eqb_eq in H. auto. }
    cbn [sall exS flat_map s_funcs app]. repeat apply Forall_cons; try apply Forall_nil; (split; [apply K; vm_compute; reflexivity|split]).
    + right. split; [|split; [cbn; lia|split]].
      * exists [], []. split; [reflexivity|]. split; [constructor|]. split; [constructor|]. right.
        split; [exists (ascii_of_nat 116), (lit "he nucleus")|exists (lit "the nucleu"), (ascii_of_nat 115)];
          (split; [reflexivity|intros [Q|[Q|[Q|[]]]]; discriminate Q]).
      * apply oneline_true. reflexivity.
      * intros Q. apply has_true in Q. vm_compute in Q. discriminate Q.
    + split; [repeat constructor; cbn; tauto|]. constructor; [|constructor].
      split; apply word_good; try (vm_compute; reflexivity); cbn; lia.
    + left. reflexivity.
    + split; constructor.
    + right. split; [|split; [cbn; lia|split]].
      * exists [], []. split; [reflexivity|]. split; [constructor|]. split; [constructor|]. right.
        split; [exists (ascii_of_nat 115), (lit "ky")|exists (lit "sk"), (ascii_of_nat 121)];
          (split; [reflexivity|intros [Q|[Q|[Q|[]]]]; discriminate Q]).
      * apply oneline_true. reflexivity.
      * intros Q. apply has_true in Q. vm_compute in Q. discriminate Q.
    + split; constructor.
  - unfold AllFinite, shown. cbn [exS flat_map map app s_x s_y s_funcs s_vals].
    assert (M : forall x, (exists n d, (1 <= n < 10 ^ 10)%Z /\ (1 <= d < 10 ^ 10)%Z /\ (x = IZR n / IZR d \/ x = - (IZR n / IZR d))%R) -> moderate x).
    { intros x (n & d & Hn & Hd & [-> | ->]); destruct (mod_num n d Hn Hd); auto. }
    repeat apply Forall_cons; try apply Forall_nil; cbn [fst].
    + apply M. exists 13225%Z, 100%Z. split; [lia|]. split; [lia|]. left. lra.
    + apply M. exists 240%Z, 1%Z. split; [lia|]. split; [lia|]. left. lra.
    + apply M. exists 12345%Z, 10%Z. split; [lia|]. split; [lia|]. left. lra.
    + apply M. exists 45%Z, 1%Z. split; [lia|]. split; [lia|]. left. lra.
    + apply M. exists 3%Z, 10%Z. split; [lia|]. split; [lia|]. left. lra.
    + left. reflexivity.
    + apply M. exists 12125%Z, 1000%Z. split; [lia|]. split; [lia|]. left. lra.
    + apply M. exists 200%Z, 1%Z. split; [lia|]. split; [lia|]. left. lra.
    + apply M. exists 202%Z, 1%Z. split; [lia|]. split; [lia|]. left. lra.
    + apply M. exists 25%Z, 10%Z. split; [lia|]. split; [lia|]. right. lra.
  - constructor; [|constructor]. exists (lit " imfit best-fit parameters"). split; [reflexivity|]. apply oneline_true. reflexivity.
  - repeat (apply Forall_cons; [apply oneline_true; reflexivity|]). constructor.
  - cbn [sall exS flat_map s_funcs app]. repeat (apply Forall_cons; [discriminate|]). constructor.
Qed.
