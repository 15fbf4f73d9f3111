(** Proofs about the bootstrap output of a joint fit. *)
From Coq Require Import Ascii String List ZArith Lia Bool Reals.
From Verif Require Import Base Num StrUtil_Model StrUtil_Spec StrUtil_Proof Config_Model Config_Spec Config_Proof ConfigL_Spec ConfigL_Proof.
From Verif Require Import ImgPar_Model Params_Model Params_Spec Params_Proof Build_Model Save_Model Save_Spec Build_Spec Build_Proof Save_Proof Save_Final.
From Verif Require Import Table_Model Table_Spec Table_Proof Multi_Model Multi_Spec Multi_Proof Multi_Draw Multi_TextSpec Multi_Text Multi_FilesSpec Multi_Files Multi_RowsSpec.
Import ListNotations.
Set Implicit Arguments. Unset Strict Implicit.
Local Open Scope list_scope.
Notation small n := (Z.of_nat n <= 2 ^ 31 - 1)%Z.

(** ---- a header continued from another line ---- *)
Lemma for_pre (b : nat -> str -> res str) : (forall i pre h, b i (pre ++ h) = do r <- b i h; Ok (pre ++ r)) ->
  forall n k pre h, for_from k n b (pre ++ h) = do r <- for_from k n b h; Ok (pre ++ r).
Proof.
  intros H. induction n as [|n IH]; intros k pre h; cbn [for_from bind]; [reflexivity|].
  rewrite H. destruct (b k h); cbn [bind]; [apply IH|reflexivity..].
Qed.
Section Head.
  Variable dec : nat -> text.
  Lemma gh_pre m p k ns pre h : gh_body dec m p (k, ns, pre ++ h) = do r <- gh_body dec m p (k, ns, h); Ok (fst (fst r), snd (fst r), pre ++ snd r).
  Proof.
    unfold gh_body.
    assert (G : forall (k ns : nat) (h : str), (do headerLine <- for_ (List.length (GetParameterNames (snd (fst p)))) (fun i headerLine =>
         do paramName <- GetParameterName m (k + i);
         do s <- PrintToString (Save_Model.c_str paramName ++ lit "_" ++ dec (snd p + 1) ++ TAB);
         Ok (headerLine ++ s)) (pre ++ h);
         Ok (k + List.length (GetParameterNames (snd (fst p))), ns, headerLine)) =
       (do r <- (do headerLine <- for_ (List.length (GetParameterNames (snd (fst p)))) (fun i headerLine =>
         do paramName <- GetParameterName m (k + i);
         do s <- PrintToString (Save_Model.c_str paramName ++ lit "_" ++ dec (snd p + 1) ++ TAB);
         Ok (headerLine ++ s)) h; Ok (k + List.length (GetParameterNames (snd (fst p))), ns, headerLine)); Ok (fst (fst r), snd (fst r), pre ++ snd r))).
    { intros k' ns' h'. unfold for_. rewrite for_pre.
      - destruct (for_from 0 _ _ h'); reflexivity.
      - intros i q x. destruct (GetParameterName m (k' + i)); cbn [bind]; [|reflexivity..].
        destruct (PrintToString _); cbn [bind]; [now rewrite app_assoc|reflexivity..]. }
    destruct (fst (fst p)); cbn [bind].
    - destruct (PrintToString _); cbn [bind]; [|reflexivity..]. rewrite <- app_assoc. apply G.
    - apply G.
  Qed.
  Lemma gh_fold m l : forall k ns pre h, foldM (gh_body dec m) l (k, ns, pre ++ h) =
    do r <- foldM (gh_body dec m) l (k, ns, h); Ok (fst (fst r), snd (fst r), pre ++ snd r).
  Proof.
    induction l as [|p l IH]; intros k ns pre h; cbn [foldM bind fst snd]; [reflexivity|].
    rewrite gh_pre. destruct (gh_body dec m p (k, ns, h)) as [[[k' ns'] h']| | |]; cbn [bind fst snd]; [apply IH|reflexivity..].
  Qed.
  Lemma header_fold m : List.length (b_flags m) = List.length (Build_Model.b_funcs m) ->
    GetParamHeader dec m = do r <- foldM (gh_body dec m) (combine (combine (b_flags m) (Build_Model.b_funcs m)) (seq 0 (List.length (Build_Model.b_funcs m)))) (0, 0, lit "# "); Ok (snd r).
  Proof.
    intros HL. unfold GetParamHeader.
    rewrite (@for_ext _ _ (fun n st => do flag <- get (b_flags m) n; do o <- get (Build_Model.b_funcs m) n; gh_body dec m (flag, o, n) st)).
    - rewrite loop_flags_n by exact HL. reflexivity.
    - intros i [[k ns] out] Hi. destruct (@get_lt _ _ i Hi) as (o & Eo). rewrite <- HL in Hi. destruct (@get_lt _ _ i Hi) as (fl & Ef). rewrite Ef, Eo. cbn [bind].
      unfold gh_body. cbn [fst snd]. destruct fl; cbn [bind]; [|reflexivity].
      destruct (PrintToString _); reflexivity.
  Qed.

  Hypothesis HD : DecOK dec.
  Lemma im_word (p : string) n : small n -> Forall (fun c => ~ Blank c) (lit p) -> lit p <> [] -> List.length (lit p) <= 20 ->
    forall line ts, Written line ts -> exists s, PrintToString (lit (p ++ "_IM_") ++ dec n ++ TAB) = Ok s /\
      Written (line ++ s) (ts ++ [lit p ++ lit "_IM_" ++ dec n]).
  Proof.
    intros Hn HF Hne HL line ts (W1 & W2). destruct (HD Hn) as [D L]. destruct (digits_chars D) as [Dn DF].
    assert (E : lit (p ++ "_IM_") = lit p ++ lit "_IM_") by (clear; induction p as [|c p IH]; cbn; [reflexivity|]; unfold lit in IH; now rewrite IH).
    rewrite E. eexists. split.
    - apply print_short. rewrite !app_length. cbn [lit list_ascii_of_string List.length TAB] in *. change (List.length TAB) with 1. lia.
    - replace ((lit p ++ lit "_IM_") ++ dec n ++ TAB) with ((lit p ++ lit "_IM_" ++ dec n) ++ TAB) by (now rewrite <- !app_assoc).
      assert (Wd (lit p ++ lit "_IM_" ++ dec n)).
      { split; [destruct (lit p); [congruence|discriminate]|]. apply Forall_app. split; auto. apply Forall_app. split.
        - repeat (constructor; [intros [Q|[Q|[Q|[]]]]; discriminate Q|]). constructor.
        - eapply Forall_impl; [|exact DF]. cbn. tauto. }
      destruct (@tokens_word_gap (lit p ++ lit "_IM_" ++ dec n) TAB) as (A & B); [auto|discriminate|constructor; [cbn; tauto|constructor]|].
      split; [apply tokens_app; auto|]. apply ends_app; auto. destruct (lit p); [congruence|discriminate].
  Qed.
  Lemma im_loop k : forall a h ts, small (a + k) -> Written h ts ->
    exists h', for_from a k (fun n h =>
      do a <- PrintToString (lit "PIXEL_SCALE_IM_" ++ dec (n + 1) ++ TAB);
      do b <- PrintToString (lit "IMAGE_PA_IM_" ++ dec (n + 1) ++ TAB);
      do c <- PrintToString (lit "FLUX_SCALE_IM_" ++ dec (n + 1) ++ TAB);
      do d <- PrintToString (lit "X0_IM_" ++ dec (n + 1) ++ TAB);
      do e <- PrintToString (lit "Y0_IM_" ++ dec (n + 1) ++ TAB);
      Ok (h ++ a ++ b ++ c ++ d ++ e)) h = Ok h' /\ Written h' (ts ++ flat_map (image_cols dec) (seq (S a) k)).
  Proof.
    induction k as [|k IH]; intros a h ts Ha W; cbn [for_from seq flat_map].
    - exists h. rewrite app_nil_r. auto.
    - assert (Hs : small (a + 1)) by lia.
      assert (G : forall p : string, forallb (fun c => negb (existsb (Ascii.eqb c) [ascii_of_nat 32; ascii_of_nat 9; ascii_of_nat 10])) (lit p) = true -> Forall (fun c => ~ Blank c) (lit p)).
      { intros p. rewrite forallb_forall. intros H. apply Forall_forall. intros c Hc HB. specialize (H c Hc). apply negb_true_iff in H.
        assert (existsb (Ascii.eqb c) [ascii_of_nat 32; ascii_of_nat 9; ascii_of_nat 10] = true); [|congruence].
        apply existsb_exists. exists c. split; [|apply Ascii.eqb_refl]. cbn in HB |- *. tauto. }
      destruct (@im_word "PIXEL_SCALE"%string (a + 1) Hs (G "PIXEL_SCALE"%string eq_refl) ltac:(discriminate) ltac:(cbn; lia) _ _ W) as (s1 & E1 & W1).
      destruct (@im_word "IMAGE_PA"%string (a + 1) Hs (G "IMAGE_PA"%string eq_refl) ltac:(discriminate) ltac:(cbn; lia) _ _ W1) as (s2 & E2 & W2).
      destruct (@im_word "FLUX_SCALE"%string (a + 1) Hs (G "FLUX_SCALE"%string eq_refl) ltac:(discriminate) ltac:(cbn; lia) _ _ W2) as (s3 & E3 & W3).
      destruct (@im_word "X0"%string (a + 1) Hs (G "X0"%string eq_refl) ltac:(discriminate) ltac:(cbn; lia) _ _ W3) as (s4 & E4 & W4).
      destruct (@im_word "Y0"%string (a + 1) Hs (G "Y0"%string eq_refl) ltac:(discriminate) ltac:(cbn; lia) _ _ W4) as (s5 & E5 & W5).
      cbn [append] in E1, E2, E3, E4, E5. rewrite E1. cbn [bind]. rewrite E2. cbn [bind]. rewrite E3. cbn [bind]. rewrite E4. cbn [bind]. rewrite E5. cbn [bind].
      rewrite <- !app_assoc in W5.
      destruct (IH (S a) (h ++ s1 ++ s2 ++ s3 ++ s4 ++ s5) (ts ++ image_cols dec (S a))) as (h' & E & W'); [lia| |].
      + rewrite Nat.add_1_r in W5. exact W5.
      + exists h'. split; [exact E|]. rewrite <- app_assoc in W'. exact W'.
  Qed.
End Head.

Section Rows.
  Variable T : Type.
  Variable N : Num T.
  Implicit Types bs : list (sblock T).

  Lemma joint_header_ok dec bs locs psfs ms j : DecOK dec -> bs <> [] -> Forall Plain bs -> Forall (Forall Plain) locs ->
    List.length psfs = List.length locs -> locs <> [] -> Forall2 (Built bs) ms (combine psfs locs) -> j_images j = ms ->
    small (List.length locs) -> small (List.length (sall (bs ++ nth 0 locs []))) ->
    exists h, JointParamHeader dec j = Ok h /\
      Tokens Blank h (lit "#" :: flat_map (image_cols dec) (seq 2 (List.length locs - 1)) ++ columns dec (bs ++ nth 0 locs [])).
  Proof.
    intros HD Hne HP HPl HLp Hnl HB Ej Hs1 Hs2.
    assert (Lm : List.length ms = List.length locs) by (rewrite (Forall2_len HB), combine_length; lia).
    destruct locs as [|loc locs]; [congruence|]. destruct psfs as [|psf psfs]; [discriminate|]. cbn [combine nth] in *.
    revert Ej. inversion HB as [|m ? ms' ? (os & Em & HM) HB']; subst ms. intros Ej. cbn [snd] in *.
    destruct (@im_loop dec HD (List.length locs) 1 (lit "# ") [lit "#"]) as (Hd & EH & WH).
    { cbn [List.length] in Hs1. lia. }
    { apply (@tokens_word_gap (lit "#") (lit " ")); [split; [discriminate|repeat constructor; intros [Q|[Q|[Q|[]]]]; discriminate Q]|discriminate|constructor; [cbn; tauto|constructor]]. }
    unfold JointParamHeader. rewrite Ej. cbn [List.length] in Lm |- *. rewrite Lm. cbn [Nat.sub]. rewrite !Nat.sub_0_r. rewrite EH. cbn [bind get nth_error].
    assert (HPa : Forall (fun b : sblock T => s_funcs b <> []) (bs ++ loc)).
    { apply Forall_app. inversion HPl; subst. split; (eapply Forall_impl; [|eassumption]); intros b (Q & _); exact Q. }
    assert (HL : List.length (b_flags m) = List.length (Build_Model.b_funcs m)).
    { rewrite Em. cbn [b_flags Build_Model.b_funcs]. rewrite flag_list_length, sizes_sall, map_length. symmetry. exact (Forall2_len HM). }
    assert (Eo : Build_Model.b_funcs m = os /\ b_flags m = flag_list (map as_blk (bs ++ loc)) /\ b_labels m = param_names (bs ++ loc) /\ b_nParamsTot m = List.length (b_labels m)) by (rewrite Em; auto).
    destruct Eo as (E1 & E2 & E3 & E4).
    rewrite (header_fold _ HL), E1, E2.
    destruct (@header_blocks T dec HD m (bs ++ loc) HPa os 0 0 [] Hd _ HM Hs2 Hs2 E3 E4 WH) as (st & h' & Eh & W).
    rewrite <- (Forall2_len HM) in Eh. cbn [List.length] in Eh.
    rewrite <- (app_nil_r Hd) in Eh. rewrite gh_fold in Eh.
    rewrite <- (app_nil_r (lit "# ")), gh_fold.
    destruct (foldM _ _ (0, 0, [])) as [[[k ns] r]| | |]; cbn [bind fst snd] in Eh |- *; [|discriminate..].
    inversion Eh; subst. eexists. split; [reflexivity|]. cbn [app skipn lit list_ascii_of_string]. exact (proj1 W).
  Qed.

  (** ---- rows ---- *)
  Lemma get_more {A} (p q : list A) i v : get p i = Ok v -> get (p ++ q) i = Ok v.
  Proof. rewrite !get_Ok_iff. intros H. rewrite nth_error_app1; [exact H|]. apply nth_error_Some. congruence. Qed.
  Variable g10 : T -> text.
  Variable sep : text.
  Hypothesis HS : ShowOK g10.
  Hypothesis HSep : SepOK sep.

  Lemma for_more (p q : list T) base n : forall k h h',
    for_from k n (fun i out => do v <- get p (base + i); do s <- PrintToString (Save_Model.c_str sep ++ g10 v); Ok (out ++ s)) h = Ok h' ->
    for_from k n (fun i out => do v <- get (p ++ q) (base + i); do s <- PrintToString (Save_Model.c_str sep ++ g10 v); Ok (out ++ s)) h = Ok h'.
  Proof.
    induction n as [|n IH]; intros k h h'; cbn [for_from]; auto.
    destruct (get p (base + k)) as [v| | |] eqn:E; cbn [bind]; [|discriminate..]. rewrite (get_more q E). cbn [bind].
    destruct (PrintToString _); cbn [bind]; [apply IH|discriminate..].
  Qed.
  Lemma row_more (p q : list T) offX offY a st r : row_body N g10 sep offX offY p a st = Ok r -> row_body N g10 sep offX offY (p ++ q) a st = Ok r.
  Proof.
    unfold row_body. destruct st as [io out].
    assert (G : forall io out, (do outputString <- for_ (List.length (GetParameterNames (snd (fst a)))) (fun i outputString =>
         do paramVal <- get p (io + i); do s <- PrintToString (Save_Model.c_str sep ++ g10 paramVal); Ok (outputString ++ s)) out;
         Ok (io + List.length (GetParameterNames (snd (fst a))), outputString)) = Ok r ->
      (do outputString <- for_ (List.length (GetParameterNames (snd (fst a)))) (fun i outputString =>
         do paramVal <- get (p ++ q) (io + i); do s <- PrintToString (Save_Model.c_str sep ++ g10 paramVal); Ok (outputString ++ s)) out;
         Ok (io + List.length (GetParameterNames (snd (fst a))), outputString)) = Ok r).
    { intros io' out'. unfold for_. destruct (for_from 0 _ _ out') as [x| | |] eqn:E; cbn [bind]; [|discriminate..].
      rewrite (@for_more p q io' _ 0 out' x E). auto. }
    destruct (fst (fst a)); cbn [bind].
    - destruct (get p io) as [px| | |] eqn:Ex; cbn [bind]; [|discriminate..].
      destruct (get p (io + 1)) as [py| | |] eqn:Ey; cbn [bind]; [|discriminate..].
      rewrite (get_more q Ex), (get_more q Ey). cbn [bind].
      destruct (if (snd a =? 0)%nat then _ else _); cbn [bind]; [apply G|discriminate..].
    - apply G.
  Qed.
  Lemma fold_more (p q : list T) offX offY l : forall st r, foldM (row_body N g10 sep offX offY p) l st = Ok r -> foldM (row_body N g10 sep offX offY (p ++ q)) l st = Ok r.
  Proof.
    induction l as [|a l IH]; intros st r; cbn [foldM]; auto.
    destruct (row_body N g10 sep offX offY p a st) as [s| | |] eqn:E; cbn [bind]; [|discriminate..]. rewrite (row_more q E). cbn [bind]. apply IH.
  Qed.
  (** only the numbers of parameters matter *)
  Lemma fold_names (p : list T) offX offY fs os : map GetParameterNames fs = map GetParameterNames os -> forall flags k st,
    foldM (row_body N g10 sep offX offY p) (combine (combine flags fs) (seq k (List.length fs))) st =
    foldM (row_body N g10 sep offX offY p) (combine (combine flags os) (seq k (List.length os))) st.
  Proof.
    revert os. induction fs as [|f fs IH]; intros [|o os] E [|b flags] k st; cbn in E; try discriminate; [reflexivity..|].
    inversion E as [[E1 E2]]. cbn [combine List.length seq foldM].
    assert (Q : row_body N g10 sep offX offY p (b, f, k) st = row_body N g10 sep offX offY p (b, o, k) st) by (unfold row_body; cbn [fst snd]; now rewrite E1).
    rewrite Q. destruct (row_body N g10 sep offX offY p (b, o, k) st); cbn [bind]; [now apply IH|reflexivity..].
  Qed.
  Lemma loop_from_1 {S} (body : bool * fobj * nat -> S -> res S) (flags : list bool) : forall (os : list fobj) k s,
    List.length flags = List.length os ->
    for_from 0 (List.length os) (fun n s => do flag <- get flags n; do o <- get os n; body (flag, o, n + k)%nat s) s
    = foldM body (combine (combine flags os) (seq k (List.length os))) s.
  Proof.
    intros os k s HL. set (l := combine (combine flags os) (seq k (List.length os))).
    assert (LL : List.length l = List.length os) by (unfold l; rewrite !combine_length, seq_length; lia). rewrite <- LL.
    apply for_foldM. intros i p t Hi. cbn [Nat.add].
    assert (G : forall (fl : list bool) (os : list fobj) k i, nth_error (combine (combine fl os) (seq k (List.length os))) i = Some p ->
       nth_error fl i = Some (fst (fst p)) /\ nth_error os i = Some (snd (fst p)) /\ snd p = (i + k)%nat).
    { clear. intros fl os. revert fl. induction os as [|o os IH]; intros [|b fl] k [|i] H; try discriminate H.
      - inversion H; subst. auto.
      - cbn [combine List.length seq nth_error] in H |- *. destruct (IH _ _ _ H) as (A & B & C). repeat split; auto. lia. }
    destruct (G _ _ _ _ Hi) as (A & B & C). rewrite (proj2 (get_Ok_iff _ _ _) A), (proj2 (get_Ok_iff _ _ _) B). cbn [bind]. rewrite <- C.
    destruct p as [[? ?] ?]. reflexivity.
  Qed.

  (** values of one row *)
  Definition row_values (offX offY : T) (ps : list T) bs : list text := map g10 ps ++ map (fun p => g10 (fst p)) (shown (nadd N) offX offY bs).

  Lemma sep_id : StrUtil_Model.c_str sep = sep.
  Proof.
    apply Multi_Text.c_str_id. destruct HSep as (_ & _ & H). eapply Forall_impl; [|exact H]. cbn. intros c [<-|[<-|[<-|[]]]]; discriminate.
  Qed.
  Lemma desc_loop (vs post : list T) : forall n v0 line ts, S n = List.length (v0 ++ vs) -> v0 <> [] -> Tokens Blank line ts ->
    exists line', for_from (List.length v0) (List.length vs) (fun i s =>
      do v <- get (v0 ++ vs ++ post) i; do t <- PrintToString (StrUtil_Model.c_str sep ++ g10 v); Ok (s ++ t)) line = Ok line' /\ Tokens Blank line' (ts ++ map g10 vs).
  Proof.
    induction vs as [|v vs IH]; intros n v0 line ts Hn H0 W; cbn [List.length for_from map].
    - exists line. rewrite app_nil_r. auto.
    - assert (Gv : get (v0 ++ (v :: vs) ++ post) (List.length v0) = Ok v) by (cbn [app]; apply get_app).
      rewrite Gv. cbn [bind]. rewrite sep_id, (print_short (short1 HS HSep v)). cbn [bind].
      destruct (IH n (v0 ++ [v]) (line ++ sep ++ g10 v) (ts ++ [g10 v])) as (l' & E & W').
      + rewrite Hn, <- app_assoc. reflexivity.
      + destruct v0; discriminate.
      + now apply row_app.
      + exists l'. rewrite app_length in E. cbn [List.length] in E. rewrite Nat.add_1_r in E. rewrite <- app_assoc in E, W'. cbn [app] in E, W' |- *.
        rewrite sep_id in E. split; [exact E|exact W'].
  Qed.

  Lemma joint_row_ok bs locs bs' imgs' fs os0 j o0 offs more : bs <> [] -> Forall Plain bs -> Refitted bs bs' ->
    Forall2 (@OfClass T) fs (sall bs) -> Forall2 (@MadeBy T) os0 (sall (bs ++ nth 0 locs [])) ->
    j_funcs j = fs -> j_flags j = flag_list (map as_blk bs) -> List.length (j_images j) = S (List.length imgs') ->
    Forall Sized (sall bs') ->
    exists r, JointHorizontalString N g10 j (o0 :: offs) (img_flat imgs' ++ sflat bs' ++ more) sep = Ok r /\
      Tokens Blank r (row_values (nofZ N (fst o0)) (nofZ N (snd o0))
        (match imgs' with [] => firstn 1 (sflat bs') | _ :: _ => img_flat imgs' end) bs').
  Proof.
    intros Hne HP RB HF HM Ef Efl Li HZ.
    rewrite sall_app in HM. apply Forall2_app_inv_r in HM. destruct HM as (o1 & o2 & HM & _ & _).
    pose proof (refit_made RB HM) as HM'. pose proof (refit_shape RB) as SB.
    assert (Hb' : Forall (fun b : sblock T => s_funcs b <> []) bs').
    { clear - RB HP. unfold Refitted in RB. induction RB as [|b b' l l' H _ IH]; constructor.
      - inversion HP as [|? ? (Q & _) _]; subst. intros E. rewrite E in H. inversion H; subst. congruence.
      - apply IH. inversion HP; auto. }
    assert (Hne' : bs' <> []) by (intros ->; inversion RB; subst; congruence).
    set (params := img_flat imgs' ++ sflat bs' ++ more).
    assert (HFl : flag_list (map as_blk bs) = flag_list (map as_blk bs')) by (exact (shape_flags SB)).
    assert (Lf : List.length (flag_list (map as_blk bs')) = List.length fs).
    { rewrite <- HFl, flag_list_length, sizes_sall, map_length. symmetry. exact (Forall2_len HF). }
    assert (EN : map GetParameterNames fs = map GetParameterNames o1).
    { clear - HF HM. revert o1 HM. induction HF as [|f x fs l (Q1 & Q2) _ IH]; intros o1 HM; inversion HM as [|o ? o1' ? HMo HM']; subst; [reflexivity|].
      cbn [map]. f_equal; [|now apply IH]. destruct (MadeBy_props HMo) as ([[Hco Hno] _ _] & _ & _).
      unfold GetParameterNames. f_equal. apply class_same; auto. congruence. }
    assert (exists p0 line, get params 0 = Ok p0 /\
      for_from 1 (List.length (img_flat imgs') - 1) (fun i s =>
        do v <- get params i; do t <- PrintToString (StrUtil_Model.c_str sep ++ g10 v); Ok (s ++ t)) (g10 p0) = Ok line /\
      Tokens Blank line (map g10 (match imgs' with [] => firstn 1 (sflat bs') | _ :: _ => img_flat imgs' end))) as (p0 & line & E0 & E1 & W1).
    { destruct imgs' as [|im imgs'].
      - destruct bs' as [|b bs']; [congruence|]. exists (s_x b), (g10 (s_x b)). split; [reflexivity|]. split; [reflexivity|].
        cbn. apply tokens_word. exact (show_word HS _).
      - unfold params. assert (El : exists v l', img_flat (im :: imgs') = v :: l') by (eexists _, _; reflexivity). destruct El as (v & l' & El).
        rewrite El. exists v. cbn [List.length]. replace (S (List.length l') - 1) with (List.length l') by lia.
        destruct (@desc_loop l' (sflat bs' ++ more) (List.length l') [v] (g10 v) [g10 v]) as (line & E & W); [reflexivity|discriminate|apply tokens_word; exact (show_word HS _)|].
        exists line. split; [reflexivity|]. split; [exact E|exact W]. }
    destruct (@row_blocks T N g10 HS sep HSep (nofZ N (fst o0)) (nofZ N (snd o0)) (img_flat imgs' ++ sflat bs') bs' Hb' o1 1 (img_flat imgs') line _ HM' HZ eq_refl W1) as (r & Er & W); [discriminate|].
    exists r. split; [|exact W]. unfold JointHorizontalString. cbn [get nth_error bind]. rewrite E0. cbn [bind].
    rewrite print_short. 2:{ destruct (HS p0) as (_ & L & _). lia. }
    cbn [bind]. rewrite Li. cbn [Nat.sub]. rewrite Nat.sub_0_r.
    assert (LI : List.length imgs' * N_IMAGE_PARAMS = List.length (img_flat imgs')) by (rewrite img_flat_length; unfold N_IMAGE_PARAMS, Params_Model.N_IMAGE_PARAMS; lia).
    rewrite LI, E1. cbn [bind]. rewrite Ef, Efl, HFl.
    assert (Lo : List.length fs = List.length o1) by (rewrite <- (map_length GetParameterNames fs), EN, map_length; reflexivity).
    apply (fold_more more) in Er. rewrite <- app_assoc in Er. fold params in Er.
    rewrite <- (Forall2_len HM') in Er. rewrite <- (fold_names params (nofZ N (fst o0)) (nofZ N (snd o0)) EN) in Er.
    rewrite <- (@loop_from_1 _ _ _ fs 1 _ Lf) in Er.
    unfold for_ at 1.
    match goal with |- (do r0 <- for_from 0 ?n ?f ?s; _) = _ => match type of Er with for_from 0 n ?g s = _ => rewrite (@for_from_ext _ f g n 0 s) end end.
    - rewrite Er. reflexivity.
    - intros i [io out] Hi. destruct (@get_lt _ fs i) as (o & Eo); [lia|]. destruct (@get_lt _ (flag_list (map as_blk bs')) i) as (fl & Efg); [lia|].
      rewrite Eo, Efg. cbn [bind]. unfold row_body. cbn [fst snd]. rewrite (Nat.add_1_r i). cbn [Nat.eqb]. rewrite sep_id, (sep_c HSep).
      destruct fl; cbn [bind]; [|reflexivity]. reflexivity.
  Qed.
End Rows.

Section Table.
  Variable T : Type.
  Variable N : Num T.
  Implicit Types bs : list (sblock T).

  Lemma refit_sized bs bs' : Refitted bs bs' -> Forall Sized (sall bs) -> Forall Sized (sall bs').
  Proof.
    unfold Refitted, sall. induction 1 as [|b b' l l' H _ IH]; cbn [flat_map]; auto. rewrite !Forall_app. intros (H1 & H2). split; auto.
    clear - H H1. induction H as [|f f' m m' (E1 & _ & _ & E4) _ IH]; constructor; inversion H1 as [|? ? (c & Hc & Hn & HL) ?]; subst; auto.
    exists c. rewrite <- E4, <- E1. auto.
  Qed.
  Lemma plain_sized bs : Forall Plain bs -> Forall Sized (sall bs).
  Proof.
    unfold sall. induction 1 as [|b l (_ & H) _ IH]; cbn [flat_map]; [constructor|]. apply Forall_app. split; auto.
    eapply Forall_impl; [|exact H]. cbn. tauto.
  Qed.
  Lemma refit_shown (add : T -> T -> T) a b c d bs bs' : Refitted bs bs' -> List.length (shown add a b bs) = List.length (shown add c d bs').
  Proof.
    unfold Refitted, shown. induction 1 as [|x x' l l' H _ IH]; cbn [flat_map]; auto. cbn [app List.length]. rewrite !app_length, !map_length, IH. do 3 f_equal.
    clear - H. induction H as [|f f' m m' (_ & _ & _ & E) _ IH]; cbn [flat_map]; auto. rewrite !app_length. congruence.
  Qed.
  Lemma shown_flat (add : T -> T -> T) a b bs : List.length (shown add a b bs) = List.length (sflat bs).
  Proof.
    induction bs as [|x l IH]; [reflexivity|]. rewrite sflat_cons. unfold shown in *. cbn [flat_map app List.length]. rewrite !app_length, map_length, IH. reflexivity.
  Qed.
  Lemma shown_app (add : T -> T -> T) a b x y : shown add a b (x ++ y) = shown add a b x ++ shown add a b y.
  Proof. unfold shown. apply flat_map_app. Qed.

  Lemma joint_table (g10 : T -> text) dec sep bs imgs locs (infos : list (ImageInfo T)) psfs :
    Images bs imgs locs infos -> List.length psfs = List.length infos -> Forall (Drawable bs) (combine psfs locs) ->
    DecOK dec -> ShowOK g10 -> SepOK sep -> small (List.length infos) -> small (List.length (sall (bs ++ nth 0 locs []))) ->
    exists ms j, image_models (shared_of bs) infos psfs = Ok (inr ms) /\ joint_model (shared_of bs) ms = Ok (inr j) /\
    exists h, JointParamHeader dec j = Ok h /\
      Tokens Blank h (lit "#" :: flat_map (image_cols dec) (seq 2 (List.length imgs)) ++ columns dec (bs ++ nth 0 locs [])) /\
      forall imgs' bs' locs' o0 offs, List.length imgs' = List.length imgs -> Refitted bs bs' ->
      exists r, JointHorizontalString N g10 j (o0 :: offs) (joint_vector imgs' bs' locs') sep = Ok r /\
        Tokens Blank r (row_values N g10 (nofZ N (fst o0)) (nofZ N (snd o0))
          (match imgs' with [] => firstn 1 (sflat bs') | _ :: _ => img_flat imgs' end) bs').
  Proof.
    intros HI HL HDr HD HS HP Hs1 Hs2. destruct (im_model HI) as (Hne & HPl).
    assert (Ll : List.length locs = List.length infos) by exact (Forall2_len (im_locals HI)).
    assert (Hc : List.length infos = S (List.length imgs)) by exact (im_count HI).
    assert (Hnl : locs <> []) by (intros ->; cbn in Ll; lia).
    destruct (@image_models_ok T bs locs infos psfs Hne HPl (im_plain HI) (im_single HI) (im_locals HI) HL) as ([z|ms] & E & H).
    { destruct H as (_ & H). contradiction. }
    destruct H as (HB & _).
    destruct (@joint_model_ok T bs locs psfs ms Hne HPl (im_plain HI) ltac:(lia) Hnl HB HDr) as (fs & Ej & HF).
    eexists ms, _. split; [exact E|]. split; [exact Ej|].
    destruct (@joint_header_ok T dec bs locs psfs ms _ HD Hne HPl (im_plain HI) ltac:(lia) Hnl HB (eq_refl (j_images (mkJoint ms fs (flag_list (map as_blk bs)) (List.length bs)
        (concat (repeat image_labels (List.length locs - 1)) ++ param_names bs)
        (5 * (List.length locs - 1) + List.length (sflat bs) + List.length (flat_map sflat locs)) (map (fun l => List.length (sflat l)) locs)))) ltac:(lia) Hs2) as (h & Eh & Wh).
    replace (List.length locs - 1) with (List.length imgs) in Wh at 1 by lia.
    exists h. split; [exact Eh|]. split; [exact Wh|].
    intros imgs' bs' locs' o0 offs Li RB.
    assert (HM : exists os, Forall2 (@MadeBy T) os (sall (bs ++ nth 0 locs []))).
    { destruct locs as [|l locs]; [congruence|]. destruct psfs as [|p psfs]; [cbn in *; lia|]. cbn [combine] in HB.
      inversion HB as [|m ? ? ? (os & _ & HM) _]; subst. exists os. exact HM. }
    destruct HM as (os & HM). unfold joint_vector.
    apply (@joint_row_ok T N g10 sep HS HP bs locs bs' imgs' fs os _ o0 offs (flat_map sflat locs') Hne HPl RB HF HM); try reflexivity.
    - cbn [j_images]. rewrite (Forall2_len HB), combine_length. lia.
    - apply (refit_sized RB), plain_sized, HPl.
  Qed.

  Lemma im_cols_len dec n : forall a, List.length (flat_map (image_cols dec) (seq a n)) = 5 * n.
  Proof. induction n as [|n IH]; intros a; cbn [seq flat_map]; auto. rewrite app_length, IH. cbn [image_cols map List.length]. lia. Qed.
End Table.
