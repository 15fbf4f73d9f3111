(** Proofs about the documented functions and the header with limits. *)
From Coq Require Import Ascii String List ZArith Reals Lra Lia.
From Verif Require Import Base Num StrUtil_Model StrUtil_Spec StrUtil_Proof Config_Spec Config_Model Config_Proof Params_Spec Params_Model Params_Proof.
From Verif Require Import Build_Model Save_Model Save_Spec Build_Spec Build_Proof Save_Proof Save_Final Head_Spec.
Import ListNotations.
Local Open Scope list_scope.
Set Implicit Arguments.
Unset Strict Implicit.

(** ---- the table ---- *)
Definition doc_name (n : text) : list (string * string) :=
  flat_map (fun d => if list_eq_dec ascii_dec n (txt (fst d)) then snd d else []) documented.
Definition texts_eqb (a b : list text) : bool := if list_eq_dec (list_eq_dec ascii_dec) a b then true else false.
Lemma texts_eqb_true a b : texts_eqb a b = true -> a = b.
Proof. unfold texts_eqb. destruct (list_eq_dec (list_eq_dec ascii_dec) a b); [auto|discriminate]. Qed.

Definition row_b (c : class) : bool :=
  texts_eqb (c_params c) (map (fun x => txt (fst x)) (doc_name (c_name c))) &&
  texts_eqb (c_units c) (map (fun x => txt (snd x)) (doc_name (c_name c))).
Lemma class_doc c : In c classes ->
  c_params c = map (fun x => txt (fst x)) (doc_name (c_name c)) /\
  c_units c = map (fun x => txt (snd x)) (doc_name (c_name c)).
Proof.
  assert (H : forallb row_b classes = true) by (vm_compute; reflexivity).
  rewrite forallb_forall in H. intros Hc. specialize (H c Hc). apply andb_true_iff in H. destruct H as [A B].
  split; apply texts_eqb_true; assumption.
Qed.

Lemma known_documented n : Known n <-> exists d, In d documented /\ n = txt (fst d).
Proof.
  assert (H1 : forallb (fun c => existsb (fun d => str_eqb (c_name c) (txt (fst d))) documented) classes = true) by (vm_compute; reflexivity).
  assert (H2 : forallb (fun d => existsb (fun c => str_eqb (c_name c) (txt (fst d))) classes) documented = true) by (vm_compute; reflexivity).
  rewrite forallb_forall in H1, H2. split.
  - intros (c & Hc & <-). specialize (H1 c Hc). apply existsb_exists in H1. destruct H1 as (d & Hd & E). apply str_eqb_true in E. eauto.
  - intros (d & Hd & ->). specialize (H2 d Hd). apply existsb_exists in H2. destruct H2 as (c & Hc & E). apply str_eqb_true in E. exists c. auto.
Qed.

Section Doc.
  Variable T : Type.
  Implicit Type f : sfunc T.

  Lemma doc_names f : Known (s_name f) -> names_of f = map (fun x => txt (fst x)) (doc_of f).
  Proof.
    intros (c & Hc & Hn). rewrite (names_of_class Hc Hn). destruct (class_doc Hc) as [E _]. rewrite E, Hn. reflexivity.
  Qed.

  Lemma doc_params bs : Forall (fun f => Known (s_name f)) (sall bs) -> param_names bs = doc_param_names bs.
  Proof.
    induction bs as [|b bs IH]; intros H; [reflexivity|].
    unfold sall in H. cbn [flat_map] in H. apply Forall_app in H. destruct H as [H1 H2].
    rewrite (param_names_cons b bs), (IH H2). unfold doc_param_names. cbn [flat_map app]. do 2 f_equal. f_equal.
    clear -H1. induction H1 as [|f fs Hf HF IHf]; [reflexivity|]. cbn [flat_map]. rewrite IHf, (doc_names Hf). reflexivity.
  Qed.
End Doc.

Lemma documented_ok (T : Type) psf (bs : list (sblock T)) m : bs <> [] -> Forall (fun b => s_funcs b <> []) bs ->
  AddFunctions psf (map s_name (sall bs)) (map s_label (sall bs)) (sstarts bs) (map s_opts (sall bs)) = Ok (0%Z, Some m) ->
  b_nParamsTot m = List.length (doc_param_names bs) /\
  forall i n, nth_error (doc_param_names bs) i = Some n -> GetParameterName m i = Ok n.
Proof.
  intros Hne Hb E. destruct (build_ok psf Hne Hb) as (HB & _ & H). destruct (H m E) as (_ & HN & HP & _).
  assert (K : Forall (fun f => Known (s_name f)) (sall bs)).
  { destruct HB as [_ HB]. destruct (HB (ex_intro _ m E)) as [K _]. eapply Forall_impl; [|exact K]. cbn. tauto. }
  rewrite <- (doc_params K). split; [exact HN|]. intros i n Hi.
  assert (L : i < List.length (param_names bs)) by (apply nth_error_Some; congruence).
  destruct (HP i L) as (s & E1 & E2). congruence.
Qed.

(** ---- the header ---- *)
Section Header.
  Variable T : Type.
  Variable N : Num T.
  Variable f4 g g5 : T -> text.
  Hypothesis Hf4 : forall v, List.length (f4 v) <= 300.
  Hypothesis Hg : forall v, List.length (g v) <= 300.
  Variable offX offY : T.
  Variable pre : text.
  Hypothesis Hpre : List.length pre <= 50.
  Notation LN := (line pre).
  Notation LT := (limits_text g).
  Notation CR := (centre_row f4 g pre).
  Notation PR := (param_row g pre).
  Notation FR := (function_rows g pre).
  Notation FRS := (functions_rows g pre).
  Notation HR := (header_rows (nadd N) f4 g offX offY pre).

  Lemma limits_len p : List.length (LT p) <= 601.
  Proof. unfold limits_text. destruct (p_fixed p); [cbn; lia|]. rewrite !app_length. pose proof (Hg (p_lo p)). pose proof (Hg (p_hi p)). cbn. lia. Qed.

  Lemma centre_head name v k info p : nth_error info k = Some p -> name = "X0"%string \/ name = "Y0"%string ->
    centre_line f4 g pre (lit name) v k None true info = Ok (CR name v p).
  Proof.
    intros Hp Hn. unfold centre_line. rewrite (proj2 (get_Ok_iff _ _ _) Hp). cbn [bind].
    assert (L2 : List.length (lit name) = 2) by (destruct Hn as [-> | ->]; reflexivity).
    pose proof (Hf4 v). pose proof (Hg (p_lo p)). pose proof (Hg (p_hi p)).
    unfold centre_row, limits_text. destruct (p_fixed p).
    - unfold xy_line_fixed. rewrite print_short; [unfold line; rewrite <- !app_assoc; reflexivity|].
      rewrite !app_length, L2. cbn. lia.
    - unfold xy_line_limits. rewrite print_short; [unfold line; rewrite <- !app_assoc; reflexivity|].
      rewrite !app_length, L2. cbn. lia.
  Qed.

  Lemma param_head m o i k v info p n u : In (fo_class o) classes ->
    GetParameterName m k = Ok (txt n) -> nth_error info k = Some p ->
    nth_error (c_params (fo_class o)) i = Some (txt n) -> nth_error (c_units (fo_class o)) i = Some (txt u) ->
    param_line g g5 m o pre i k v None true info = Ok (PR ((n, u), (v, p))).
  Proof.
    intros Hc En Hp Ei Eu. destruct (class_facts Hc) as (_ & GN & GU & _).
    assert (GU1 : GoodUnits (txt u)) by (rewrite Forall_forall in GU; apply GU; eapply nth_error_In; exact Eu).
    assert (GN1 : GoodName (txt n)) by (rewrite Forall_forall in GN; apply GN; eapply nth_error_In; exact Ei).
    destruct GU1 as (_ & Ou & Lu). destruct GN1 as (_ & _ & On & Ln).
    unfold param_line. rewrite En. cbn [bind]. rewrite (proj2 (get_Ok_iff _ _ _) Hp). cbn [bind].
    rewrite (c_str_id (OneLine_NoNul On)). rewrite (proj2 (get_Ok_iff _ _ _) Eu).
    destruct (pad7_split (g v)) as (q & Eq & Hq).
    assert (E7 : pad7 (g v) = in7 (g v)) by reflexivity.
    assert (L7 : List.length (in7 (g v)) <= 307) by (rewrite <- E7, Eq, app_length, repeat_length; pose proof (Hg v); lia).
    pose proof (Hg (p_lo p)). pose proof (Hg (p_hi p)).
    assert (Main : (do r <- (if p_fixed p then do s <- PrintToString (@par_text_fixed T g pre (txt n) v); Ok (s, TAB ++ lit "# ")
        else do s <- PrintToString (@par_text_limits T g pre (txt n) v (p_lo p) (p_hi p)); Ok (s, TAB ++ lit "# "));
        let '(newLine, unitsPrefix) := r in
        do unitsString <- Ok (txt u);
        match unitsString with
        | [] => Ok (newLine ++ NL)
        | _ :: _ => do extraString <- PrintToString (TAB ++ c_str unitsPrefix ++ c_str unitsString); Ok ((newLine ++ extraString) ++ NL)
        end) = Ok (PR ((n, u), (v, p)))); [|exact Main].
    assert (Step : (if p_fixed p then do s <- PrintToString (@par_text_fixed T g pre (txt n) v); Ok (s, TAB ++ lit "# ")
        else do s <- PrintToString (@par_text_limits T g pre (txt n) v (p_lo p) (p_hi p)); Ok (s, TAB ++ lit "# "))
        = Ok (pre ++ txt n ++ tabs ++ in7 (g v) ++ tabs ++ LT p, TAB ++ lit "# ")).
    { unfold limits_text. destruct (p_fixed p).
      - unfold par_text_fixed. rewrite E7. rewrite print_short; [reflexivity|]. remember (in7 (g v)) as X7. remember (txt n) as Xn. rewrite !app_length. cbn. lia.
      - unfold par_text_limits. rewrite E7. rewrite print_short; [reflexivity|]. remember (in7 (g v)) as X7. remember (txt n) as Xn. rewrite !app_length. cbn. lia. }
    rewrite Step. cbn [bind]. unfold param_row, unit_text, line.
    destruct u as [|u0 u].
    - cbn [txt list_ascii_of_string]. f_equal. rewrite app_nil_r, <- !app_assoc. reflexivity.
    - cbn [txt list_ascii_of_string]. change (u0 :: list_ascii_of_string u) with (txt (String u0 u)).
      rewrite (c_str_id (OneLine_NoNul Ou)).
      assert (Ec : c_str (TAB ++ lit "# ") = TAB ++ lit "# ") by reflexivity. rewrite Ec.
      rewrite print_short by (rewrite !app_length; cbn in *; lia). cbn [bind]. f_equal. rewrite <- !app_assoc. reflexivity.
  Qed.

  Lemma params_head m o info params docs vals ps npre npost ppre ppost qpre qpost out :
    In (fo_class o) classes -> c_params (fo_class o) = map (fun x => txt (fst x)) docs -> c_units (fo_class o) = map (fun x => txt (snd x)) docs ->
    List.length vals = List.length docs -> List.length ps = List.length docs ->
    b_labels m = npre ++ map (fun x => txt (fst x)) docs ++ npost -> b_nParamsTot m = List.length (b_labels m) ->
    params = ppre ++ vals ++ ppost -> List.length npre = List.length ppre ->
    info = qpre ++ ps ++ qpost -> List.length qpre = List.length ppre ->
    print_params g g5 m o pre params None true info (List.length ppre) out = Ok (out ++ map PR (combine docs (combine vals ps))).
  Proof.
    intros Hc Hn Hu HL HL2 Eb En Ep Hl Eq Hq. unfold print_params, for_, GetParameterNames. rewrite Hn, map_length.
    enough (G : forall d2 d1 v1 v2 p1 p2 o2, docs = d1 ++ d2 -> vals = v1 ++ v2 -> ps = p1 ++ p2 ->
        List.length d1 = List.length v1 -> List.length d1 = List.length p1 ->
      for_from (List.length d1) (List.length d2) (fun i out =>
         do paramVal <- get params (List.length ppre + i);
         do l <- param_line g g5 m o pre i (List.length ppre + i) paramVal None true info;
         Ok (out ++ [l])) o2 = Ok (o2 ++ map PR (combine d2 (combine v2 p2)))).
    { exact (G docs [] [] vals [] ps out eq_refl eq_refl eq_refl eq_refl eq_refl). }
    induction d2 as [|[n u] d2 IH]; intros d1 v1 v2 p1 p2 o2 E1 E2 E3 E4 E5.
    - cbn. now rewrite app_nil_r.
    - destruct v2 as [|v v2]; [exfalso; rewrite E1, E2, !app_length in HL; cbn in HL; lia|].
      destruct p2 as [|p p2]; [exfalso; rewrite E1, E3, !app_length in HL2; cbn in HL2; lia|].
      cbn [List.length for_from combine map].
      assert (Gp : get params (List.length ppre + List.length d1) = Ok v).
      { rewrite Ep, E2. replace (ppre ++ (v1 ++ v :: v2) ++ ppost) with ((ppre ++ v1) ++ v :: (v2 ++ ppost)) by (rewrite <- !app_assoc; reflexivity).
        apply get_app_eq. rewrite app_length. lia. }
      rewrite Gp. cbn [bind].
      assert (Gn : GetParameterName m (List.length ppre + List.length d1) = Ok (txt n)).
      { unfold GetParameterName. rewrite En, Eb, E1, map_app. cbn [map fst].
        set (D := fun x : string * string => txt (fst x)).
        replace (npre ++ (map D d1 ++ txt n :: map D d2) ++ npost) with ((npre ++ map D d1) ++ txt n :: (map D d2 ++ npost)) by (rewrite <- !app_assoc; reflexivity).
        destruct (Nat.ltb_spec (List.length ppre + List.length d1) (List.length ((npre ++ map D d1) ++ txt n :: map D d2 ++ npost))) as [H|H].
        - apply get_app_eq. rewrite app_length, map_length. lia.
        - rewrite !app_length, map_length in H. cbn in H. lia. }
      assert (Gi : nth_error info (List.length ppre + List.length d1) = Some p).
      { rewrite Eq, E3, <- app_assoc. rewrite nth_error_app2 by lia. rewrite nth_error_app2 by lia.
        replace (List.length ppre + List.length d1 - List.length qpre - List.length p1) with 0 by lia. reflexivity. }
      rewrite (@param_head m o (List.length d1) (List.length ppre + List.length d1) v info p n u Hc Gn Gi).
      + cbn [bind]. specialize (IH (d1 ++ [(n, u)]) (v1 ++ [v]) v2 (p1 ++ [p]) p2 (o2 ++ [PR ((n, u), (v, p))])).
        rewrite app_length, Nat.add_1_r in IH. cbn [List.length] in IH. rewrite IH.
        * rewrite <- app_assoc. reflexivity.
        * rewrite <- app_assoc. exact E1. * rewrite <- app_assoc. exact E2. * rewrite <- app_assoc. exact E3.
        * rewrite app_length. cbn. lia. * rewrite app_length. cbn. lia.
      + rewrite Hn, E1, map_app, nth_error_app2 by (rewrite map_length; lia). rewrite map_length, Nat.sub_diag. reflexivity.
      + rewrite Hu, E1, map_app, nth_error_app2 by (rewrite map_length; lia). rewrite map_length, Nat.sub_diag. reflexivity.
  Qed.

  Definition HeadFunc (f : sfunc T) : Prop := GoodFunc f /\ (s_name f = PSR -> s_opts f = []).

  Lemma extra_kept f : HeadFunc f -> extra_of f = match kept f with [] => None | m => Some m end.
  Proof.
    intros [_ H]. unfold extra_of, kept. destruct (in_order (s_opts f)) as [|[k v] t] eqn:E; [reflexivity|].
    destruct (s_opts f) as [|x l] eqn:Eo; [cbn in E; discriminate|].
    destruct (list_eq_dec ascii_dec (s_name f) (list_ascii_of_string "PointSource")) as [e|e].
    - rewrite e. destruct (list_eq_dec ascii_dec k (list_ascii_of_string "method")) as [ek|ek].
      + rewrite ek. assert (A : str_eqb (list_ascii_of_string "method") (lit "method") = true) by reflexivity. rewrite A.
        assert (B : str_eqb (list_ascii_of_string "PointSource") PS = true) by reflexivity. rewrite B. reflexivity.
      + destruct (str_eqb k (lit "method")) eqn:Ek; [apply str_eqb_true in Ek; contradiction|reflexivity].
    - destruct (str_eqb k (lit "method")); [|reflexivity].
      destruct (str_eqb (s_name f) PS) eqn:E1; [apply str_eqb_true in E1; contradiction|].
      destruct (str_eqb (s_name f) PSR) eqn:E2; [|reflexivity].
      apply str_eqb_true in E2. specialize (H E2). discriminate.
  Qed.

  Lemma extra_lines_eq mm : Forall (fun kv => GoodWord (fst kv) /\ GoodWord (snd kv)) mm ->
    extra_lines mm = Ok (map (fun kv => fst kv ++ txt "   " ++ snd kv) mm).
  Proof.
    induction 1 as [|[k v] l [Hk Hv] HF IH]; [reflexivity|]. cbn [extra_lines fst snd map] in *.
    destruct (GoodWord_chars Hk) as (_ & Ok_ & _). destruct (GoodWord_chars Hv) as (_ & Ov & _).
    rewrite (c_str_id (OneLine_NoNul Ok_)), (c_str_id (OneLine_NoNul Ov)).
    destruct (opt_says Hk Hv) as (_ & _ & L). rewrite print_short by lia. cbn [bind]. rewrite IH. reflexivity.
  Qed.

  Lemma function_head o f out : Pre pre -> MadeBy o f -> HeadFunc f ->
    print_function o pre out = Ok (out ++ LN (txt "FUNCTION " ++ s_name f ++ label_text (s_label f)) :: option_rows pre f).
  Proof.
    intros HP HM HH. destruct (MadeBy_props HM) as (MF & HX & _). destruct MF as [[Hc Hn] Hlab _].
    destruct (class_facts Hc) as ((Wn & Cn & On & Ln) & _).
    assert (GL : GoodLabel (s_label f)) by apply HH. rewrite Hn in On, Ln.
    unfold print_function. rewrite Hlab, Hn, (c_str_id (OneLine_NoNul On)).
    assert (EL : (match s_label f with [] => Ok [] | _ :: _ => PrintToString (lit "   # LABEL " ++ c_str (s_label f)) end) = Ok (label_text (s_label f)) /\
      NoNul (label_text (s_label f)) /\ List.length (label_text (s_label f)) <= 911).
    { destruct GL as [->|(HT & Hlen & HF & HN)]; [repeat split; [constructor|cbn; lia]|].
      unfold label_text. destruct (s_label f) as [|l0 lab] eqn:El; [cbn in Hlen; lia|]. rewrite <- El in *.
      rewrite (c_str_id (OneLine_NoNul HF)). rewrite print_short by (rewrite app_length; cbn; lia).
      split; [reflexivity|]. split; [|rewrite app_length; cbn; lia].
      apply NoNul_app; [apply OneLine_NoNul, OneLine_lit; reflexivity|now apply OneLine_NoNul]. }
    destruct EL as (EL & NN & LL). rewrite EL. cbn [bind]. rewrite (c_str_id NN).
    rewrite print_short by (rewrite !app_length; cbn; lia). cbn [bind].
    assert (EX : exists ls, GetExtraParamsDescription o = Ok ls /\ Forall (fun l => OneLine l /\ List.length l <= 803) ls /\ map LN ls = option_rows pre f).
    { destruct (@extra_descr o) as (ls & E & C & _).
      { intros x Hx. rewrite HX in Hx. exact (extra_good (proj1 HH) Hx). }
      exists ls. split; [exact E|]. split; [exact C|].
      unfold GetExtraParamsDescription in E. rewrite HX in E. rewrite (extra_kept HH) in E. unfold option_rows.
      destruct (kept f) as [|x l] eqn:Ek; [inversion E; reflexivity|].
      assert (GW : Forall (fun kv => GoodWord (fst kv) /\ GoodWord (snd kv)) (in_order (x :: l))).
      { assert (Q : extra_of f = Some (x :: l)) by (rewrite (extra_kept HH), Ek; reflexivity).
        pose proof (extra_good (proj1 HH) Q) as W. rewrite Forall_forall in *. intros kv Hkv. apply W. now apply in_order_in. }
      rewrite (extra_lines_eq GW) in E. cbn [bind] in E. inversion E as [E']. cbn [map app]. f_equal.
      rewrite map_app, map_map. reflexivity. }
    destruct EX as (ls & E & C & EM). rewrite E. cbn [bind].
    rewrite (@loop_list _ _ (fun l out => do s <- PrintToString (pre ++ c_str l ++ NL); Ok (out ++ [s])) ls).
    rewrite (fold_lines HP C). rewrite <- EM, <- app_assoc. unfold line. rewrite <- !app_assoc. reflexivity.
  Qed.

  Hypothesis HPre : Pre pre.

  (** one pass of the loop *)
  Definition pl_body (m : built) (params : list T) (info : list (mp_par T)) (p : bool * fobj) (st : nat * list str) : res (nat * list str) :=
    let '(indexOffset, out) := st in
    do c <- (if fst p then
        do px <- get params indexOffset;
        do py <- get params (indexOffset + 1);
        do blank <- PrintToString (pre ++ NL);
        do lx <- centre_line f4 g pre (lit "X0") (nadd N px offX) indexOffset None true info;
        do ly <- centre_line f4 g pre (lit "Y0") (nadd N py offY) (indexOffset + 1) None true info;
        Ok (indexOffset + 2, out ++ [blank; lx; ly])
      else Ok (indexOffset, out));
    let '(indexOffset, out) := c in
    do out <- print_function (snd p) pre out;
    do out <- print_params g g5 m (snd p) pre params None true info indexOffset out;
    Ok (indexOffset + List.length (GetParameterNames (snd p)), out).

  Lemma doc_len (f : sfunc T) : Sized f -> List.length (s_vals f) = List.length (doc_of f) /\ names_of f = map (fun x => txt (fst x)) (doc_of f).
  Proof.
    intros (c & Hc & Hn & HL). assert (K : Known (s_name f)) by (exists c; auto).
    split; [|now apply doc_names]. rewrite HL. destruct (class_doc Hc) as [E _]. rewrite E, map_length, Hn. reflexivity.
  Qed.

  Lemma combine_front A B (a : list A) (b : list B) c : List.length a = List.length b -> combine a (b ++ c) = combine a b.
  Proof. revert b. induction a as [|x a IH]; intros [|y b] H; cbn in *; try discriminate; auto. rewrite IH; auto. Qed.

  Lemma one_head m o f params info ps npre npost ppre ppost qpre qpost out :
    MadeBy o f -> HeadFunc f ->
    b_labels m = npre ++ names_of f ++ npost -> b_nParamsTot m = List.length (b_labels m) ->
    params = ppre ++ s_vals f ++ ppost -> List.length npre = List.length ppre ->
    info = qpre ++ ps ++ qpost -> List.length qpre = List.length ppre -> List.length ps = List.length (s_vals f) ->
    (do out <- print_function o pre out;
     do out <- print_params g g5 m o pre params None true info (List.length ppre) out;
     Ok (List.length ppre + List.length (GetParameterNames o), out)) = Ok (List.length (ppre ++ s_vals f), out ++ FR f (ps ++ qpost)).
  Proof.
    intros HM HH Eb En Ep Hl Eq Hq Hps. rewrite (function_head out HPre HM HH). cbn [bind].
    destruct (MadeBy_props HM) as (MF & _). destruct MF as [[Hc Hn] _ _].
    destruct (class_doc Hc) as [E1 E2]. rewrite Hn in E1, E2. change (doc_name (s_name f)) with (doc_of f) in E1, E2.
    destruct (doc_len (proj1 (proj1 HH))) as [HL HN]. rewrite HN in Eb.
    rewrite (@params_head m o info params (doc_of f) (s_vals f) ps npre npost ppre ppost qpre qpost _ Hc E1 E2 HL) by (try assumption; lia).
    cbn [bind]. f_equal. f_equal.
    - rewrite app_length. unfold GetParameterNames. rewrite E1, map_length. lia.
    - unfold function_rows. rewrite (@combine_front _ _ (s_vals f) ps qpost) by lia. rewrite <- !app_assoc. reflexivity.
  Qed.

  Lemma skipn_app_len A (a b : list A) n : n = List.length a -> skipn n (a ++ b) = b.
  Proof. intros ->. rewrite skipn_app, skipn_all, Nat.sub_diag. reflexivity. Qed.
  Lemma take_front A (l : list A) n : n <= List.length l -> exists a b, l = a ++ b /\ List.length a = n.
  Proof. intros H. exists (firstn n l), (skipn n l). split; [symmetry; apply firstn_skipn|]. apply firstn_length_le. exact H. Qed.

  Lemma funcs_head m params info fs : forall os npre npost ppre ppost qpre ps out,
    Forall2 (@MadeBy T) os fs -> Forall HeadFunc fs ->
    b_labels m = npre ++ flat_map names_of fs ++ npost -> b_nParamsTot m = List.length (b_labels m) ->
    params = ppre ++ flat_map s_vals fs ++ ppost -> List.length npre = List.length ppre ->
    info = qpre ++ ps -> List.length qpre = List.length ppre -> List.length (flat_map s_vals fs) <= List.length ps ->
    foldM (pl_body m params info) (combine (repeat false (List.length fs)) os) (List.length ppre, out)
      = Ok (List.length (ppre ++ flat_map s_vals fs), out ++ FRS fs ps).
  Proof.
    induction fs as [|f fs IH]; intros os npre npost ppre ppost qpre ps out H2 HG Eb En Ep Hl Eq Hq Hps;
      inversion H2 as [|o ? os' ? HM H2']; subst os.
    - cbn. rewrite !app_nil_r. reflexivity.
    - apply Forall_cons_iff in HG. destruct HG as [G1 G2].
      cbn [List.length repeat combine foldM flat_map map] in *.
      unfold pl_body at 1. cbn [fst snd bind].
      rewrite <- app_assoc in Eb, Ep. rewrite app_length in Hps.
      destruct (@take_front _ ps (List.length (s_vals f))) as (p1 & p2 & Eps & Lp1); [lia|]. rewrite Eps in Eq.
      rewrite (@one_head m o f params info p1 npre (flat_map names_of fs ++ npost) ppre (flat_map s_vals fs ++ ppost) qpre p2 out HM G1 Eb En Ep Hl Eq Hq Lp1).
      cbn [bind].
      destruct (doc_len (proj1 (proj1 G1))) as [HL HN].
      rewrite (IH os' (npre ++ names_of f) npost (ppre ++ s_vals f) ppost (qpre ++ p1) p2); auto.
      + rewrite <- !app_assoc. cbn [functions_rows]. rewrite Eps, (@skipn_app_len _ p1 p2) by auto. reflexivity.
      + now rewrite <- app_assoc. + now rewrite <- app_assoc.
      + rewrite HN, !app_length, map_length. lia.
      + now rewrite <- app_assoc. + rewrite !app_length. lia.
      + rewrite Eps, app_length in Hps. lia.
  Qed.

  Lemma blocks_head m params info bs : Forall (fun b => s_funcs b <> []) bs ->
    forall os npre ppre qpre ps out,
    Forall2 (@MadeBy T) os (sall bs) -> Forall HeadFunc (sall bs) ->
    b_labels m = npre ++ param_names bs -> b_nParamsTot m = List.length (b_labels m) ->
    params = ppre ++ sflat bs -> List.length npre = List.length ppre ->
    info = qpre ++ ps -> List.length qpre = List.length ppre -> List.length ps = List.length (sflat bs) ->
    foldM (pl_body m params info) (combine (flag_list (map as_blk bs)) os) (List.length ppre, out)
      = Ok (List.length params, out ++ HR bs ps).
  Proof.
    induction 1 as [|b bs Hb HFb IH]; intros os npre ppre qpre ps out H2 HG Eb En Ep Hl Eq Hq Hps.
    - inversion H2; subst. cbn. rewrite !app_nil_r. destruct ps; reflexivity.
    - unfold sall in H2, HG. cbn [flat_map] in H2, HG. fold (sall bs) in H2, HG.
      apply Forall2_app_inv_r in H2. destruct H2 as (o1 & o2 & H1 & H2 & ->). apply Forall_app in HG. destruct HG as [HG1 HG2].
      unfold flag_list. cbn [map flat_map]. fold (flag_list (map as_blk bs)). cbn [as_blk Params_Spec.b_funcs].
      rewrite param_names_cons in Eb. rewrite sflat_cons in Ep, Hps.
      destruct ps as [|p0 [|p1 ps]]; [cbn in Hps; lia|cbn in Hps; lia|].
      cbn [List.length] in Hps. rewrite app_length in Hps.
      cbn [header_rows]. set (HRS := header_rows (nadd N) f4 g offX offY pre bs) in *.
      destruct (s_funcs b) as [|f fs] eqn:Ef; [congruence|].
      inversion H1 as [|o ? o1' ? HM H1']; subst o1. cbn [map]. rewrite map_length.
      apply Forall_cons_iff in HG1. destruct HG1 as [G1 G2].
      rewrite combine_app by (cbn; rewrite repeat_length; f_equal; symmetry; exact (Forall2_len H1')).
      rewrite foldM_app. cbn [combine foldM]. unfold pl_body at 1. cbn [fst snd].
      assert (Gx : get params (List.length ppre) = Ok (s_x b)) by (rewrite Ep; apply get_app).
      assert (Gy : get params (List.length ppre + 1) = Ok (s_y b)).
      { rewrite Ep. replace (ppre ++ s_x b :: s_y b :: flat_map s_vals (f :: fs) ++ sflat bs)
          with ((ppre ++ [s_x b]) ++ s_y b :: flat_map s_vals (f :: fs) ++ sflat bs) by (rewrite <- app_assoc; reflexivity).
        apply get_app_eq. rewrite app_length. reflexivity. }
      rewrite Gx, Gy. cbn [bind].
      rewrite (@print_short (pre ++ NL)) by (rewrite app_length; cbn; lia). cbn [bind].
      assert (I0 : nth_error info (List.length ppre) = Some p0) by (rewrite Eq, <- Hq, nth_error_app2, Nat.sub_diag by lia; reflexivity).
      assert (I1 : nth_error info (List.length ppre + 1) = Some p1).
      { rewrite Eq, <- Hq, nth_error_app2 by lia. replace (List.length qpre + 1 - List.length qpre) with 1 by lia. reflexivity. }
      rewrite (@centre_head "X0" (nadd N (s_x b) offX) (List.length ppre) info p0 I0 (or_introl eq_refl)).
      rewrite (@centre_head "Y0" (nadd N (s_y b) offY) (List.length ppre + 1) info p1 I1 (or_intror eq_refl)). cbn [bind].
      replace (List.length ppre + 2) with (List.length (ppre ++ [s_x b; s_y b])) by (rewrite app_length; reflexivity).
      cbn [flat_map] in Hps. rewrite app_length in Hps.
      destruct (@take_front _ ps (List.length (s_vals f))) as (q1 & q2 & Eps & Lq1); [lia|].
      destruct (doc_len (proj1 (proj1 G1))) as [HL HN].
      set (rows3 := [pre ++ NL; _; _]).
      rewrite (@one_head m o f params info q1 (npre ++ [lit "X0"; lit "Y0"]) (flat_map names_of fs ++ param_names bs)
          (ppre ++ [s_x b; s_y b]) (flat_map s_vals fs ++ sflat bs) (qpre ++ [p0; p1]) q2 (out ++ rows3) HM G1); auto.
      2:{ rewrite Eb. cbn [flat_map]. rewrite <- !app_assoc. reflexivity. }
      2:{ rewrite Ep. cbn [flat_map]. rewrite <- !app_assoc. reflexivity. }
      2:{ rewrite !app_length. cbn [List.length]. lia. }
      2:{ rewrite Eq, Eps, <- app_assoc. reflexivity. }
      2:{ rewrite !app_length. cbn [List.length]. lia. }
      cbn [bind].
      rewrite (@funcs_head m params info fs o1' ((npre ++ [lit "X0"; lit "Y0"]) ++ names_of f) (param_names bs)
          ((ppre ++ [s_x b; s_y b]) ++ s_vals f) (sflat bs) ((qpre ++ [p0; p1]) ++ q1) q2); auto.
      2:{ rewrite Eb. cbn [flat_map]. rewrite <- !app_assoc. reflexivity. }
      2:{ rewrite Ep. cbn [flat_map]. rewrite <- !app_assoc. reflexivity. }
      2:{ rewrite HN, !app_length, map_length. cbn [List.length]. lia. }
      2:{ rewrite Eq, Eps, <- !app_assoc. reflexivity. }
      2:{ rewrite !app_length. cbn [List.length]. lia. }
      2:{ rewrite Eps, app_length in Hps. lia. }
      cbn [bind].
      destruct (@take_front _ q2 (List.length (flat_map s_vals fs))) as (r1 & r2 & Er & Lr1); [rewrite Eps, app_length in Hps; lia|].
      assert (HLs : List.length (flat_map s_vals fs) = List.length (flat_map names_of fs)).
      { clear -G2. induction G2 as [|h fs Hh HFs IHs]; auto. cbn [flat_map]. rewrite !app_length, IHs. f_equal.
        destruct (doc_len (proj1 (proj1 Hh))) as [A B]. rewrite B, map_length. exact A. }
      rewrite (IH o2 (((npre ++ [lit "X0"; lit "Y0"]) ++ names_of f) ++ flat_map names_of fs)
          (((ppre ++ [s_x b; s_y b]) ++ s_vals f) ++ flat_map s_vals fs) (((qpre ++ [p0; p1]) ++ q1) ++ r1) r2); auto.
      + f_equal. f_equal. rewrite <- !app_assoc. unfold rows3. do 2 f_equal. cbn [functions_rows flat_map].
        rewrite Eps, (@skipn_app_len _ q1 q2) by auto. rewrite <- !app_assoc. do 2 f_equal.
        unfold HRS. f_equal. rewrite Er, app_assoc. symmetry. apply skipn_app_len. rewrite !app_length. lia.
      + rewrite Eb. cbn [flat_map]. rewrite <- !app_assoc. reflexivity.
      + rewrite Ep. cbn [flat_map]. rewrite <- !app_assoc. reflexivity.
      + rewrite HN, !app_length, map_length. cbn [List.length]. rewrite HLs. lia.
      + rewrite Eq, Eps, Er, <- !app_assoc. reflexivity.
      + rewrite !app_length. cbn [List.length]. lia.
      + rewrite Eps, Er, !app_length in Hps. lia.
  Qed.

  Lemma header_all os bs info before : GoodModel bs -> Forall (fun f => s_name f = PSR -> s_opts f = []) (sall bs) ->
    Forall2 (@MadeBy T) os (sall bs) -> List.length info = List.length (sflat bs) ->
    let m := mkBuilt os (flag_list (map as_blk bs)) (param_names bs) (List.length (param_names bs)) in
    PrintModelParamsToStrings N f4 g g5 m offX offY (sflat bs) None pre true info before = Ok (0%Z, before ++ HR bs info).
  Proof.
    intros (Hne & Hb & HG) HR2 H2 HI m.
    assert (HH : Forall HeadFunc (sall bs)) by (rewrite Forall_forall in *; intros f Hf; split; [apply HG|apply HR2]; exact Hf).
    pose proof (@blocks_head m (sflat bs) info bs Hb os [] [] [] info before H2 HH eq_refl eq_refl eq_refl eq_refl eq_refl eq_refl HI) as E.
    unfold PrintModelParamsToStrings.
    assert (En : (match info with [] => true | _ => false end) = false).
    { destruct info as [|a l]; [|reflexivity]. destruct bs as [|b t]; [congruence|]. rewrite sflat_cons in HI. discriminate. }
    rewrite En. cbn [andb].
    assert (HL : List.length (flag_list (map as_blk bs)) = List.length os).
    { rewrite flag_list_length, sizes_sall, map_length. symmetry. exact (Forall2_len H2). }
    cbn [Build_Model.b_funcs m].
    rewrite (@for_ext _ _ (fun n st => do o <- get os n; do flag <- get (flag_list (map as_blk bs)) n;
               pl_body m (sflat bs) info (flag, o) st)).
    - rewrite (@loop_flags _ (pl_body m (sflat bs) info)) by exact HL.
      cbn [List.length app] in E. rewrite E. cbn [bind snd app]. reflexivity.
    - intros i [k out] Hi. destruct (@get_lt _ os i Hi) as (o & Eo). rewrite Eo. cbn [bind].
      unfold print_centre. cbn [b_flags m]. rewrite <- HL in Hi. destruct (@get_lt _ _ i Hi) as (fl & Ef). rewrite Ef. cbn [bind].
      unfold pl_body. cbn [fst snd]. reflexivity.
  Qed.
End Header.

Lemma header_ok (T : Type) (N : Num T) (f4 g g5 : T -> text) psf (bs : list (sblock T)) m offX offY pre info before :
  (forall v, List.length (f4 v) <= 300 /\ List.length (g v) <= 300) -> OneLine pre -> List.length pre <= 50 ->
  AddFunctions psf (map s_name (sall bs)) (map s_label (sall bs)) (sstarts bs) (map s_opts (sall bs)) = Ok (0%Z, Some m) ->
  GoodModel bs -> Forall (fun f => s_name f = PSR -> s_opts f = []) (sall bs) -> List.length info = List.length (sflat bs) ->
  PrintModelParamsToStrings N f4 g g5 m offX offY (sflat bs) None pre true info before =
    Ok (0%Z, before ++ header_rows (nadd N) f4 g offX offY pre bs info).
Proof.
  intros HL HO HP E HG HR HI. destruct HG as (Hne & Hb & HG0).
  destruct (add_functions_ok psf Hne Hb) as [(s & Hs & E' & HN)|(os & E' & HB & H2 & _)]; rewrite E' in E; [discriminate|].
  inversion E as [Em]. apply header_all; auto.
  - intros v. apply HL. - intros v. apply HL. - split; auto. - split; auto.
Qed.
