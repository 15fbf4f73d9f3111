From Coq Require Import Ascii String List ZArith Lia Bool.
From Verif Require Import Base StrUtil_Model StrUtil_Spec StrUtil_Proof Config_Model Config_Spec Config_Proof ConfigL_Spec ConfigL_Proof.
From Verif Require Import Params_Model Params_Spec Params_Proof Build_Model Save_Spec Build_Spec.
Set Implicit Arguments. Unset Strict Implicit.
Local Open Scope list_scope.

Lemma find_class_sound l n c : find_class l n = Some c -> In c l /\ c_name c = n.
Proof.
  induction l as [|a l IH]; simpl; [discriminate|]. destruct (str_eqb n (c_name a)) eqn:E.
  - intros H; inversion H; subst. apply str_eqb_true in E. auto.
  - intros H. destruct (IH H). auto.
Qed.
Lemma find_class_none l n : find_class l n = None -> forall c, In c l -> c_name c <> n.
Proof.
  induction l as [|a l IH]; simpl; [intros _ c []|]. destruct (str_eqb n (c_name a)) eqn:E; [discriminate|].
  intros H c [<-|Hc]; [|auto]. intros <-. rewrite str_eqb_refl in E. discriminate.
Qed.
Definition class_eqb (c d : class) : bool :=
  str_eqb (c_name c) (c_name d) && match c_kind c, c_kind d with KPlain, KPlain | KPoint, KPoint | KPointRot, KPointRot => true | _, _ => false end
  && (if list_eq_dec (list_eq_dec ascii_dec) (c_params c) (c_params d) then true else false)
  && (if list_eq_dec (list_eq_dec ascii_dec) (c_units c) (c_units d) then true else false).
Lemma class_eqb_true c d : class_eqb c d = true -> c = d.
Proof.
  unfold class_eqb. destruct c as [n k p u], d as [n' k' p' u']; simpl. intros H.
  apply andb_true_iff in H. destruct H as [H H4]. apply andb_true_iff in H. destruct H as [H H3].
  apply andb_true_iff in H. destruct H as [H1 H2]. apply str_eqb_true in H1.
  destruct (list_eq_dec _ p p'); [|discriminate]. destruct (list_eq_dec _ u u'); [|discriminate]. subst.
  destruct k, k'; auto; discriminate.
Qed.
(** class names are different *)
Lemma class_unique c : In c classes -> find_class classes (c_name c) = Some c.
Proof.
  assert (H : forallb (fun c => match find_class classes (c_name c) with Some d => class_eqb d c | None => false end) classes = true)
    by (vm_compute; reflexivity).
  rewrite forallb_forall in H. intros Hc. specialize (H c Hc).
  destruct (find_class classes (c_name c)) as [d|]; [|discriminate]. f_equal. apply class_eqb_true, H.
Qed.
Lemma class_same c d : In c classes -> In d classes -> c_name c = c_name d -> c = d.
Proof. intros Hc Hd E. pose proof (class_unique Hc) as A. rewrite E, (class_unique Hd) in A. now inversion A. Qed.
Lemma kind_name c : In c classes ->
  match c_kind c with KPlain => c_name c <> PS /\ c_name c <> PSR | KPoint => c_name c = PS | KPointRot => c_name c = PSR end.
Proof.
  assert (H : forallb (fun c => match c_kind c with
     | KPlain => negb (str_eqb (c_name c) PS) && negb (str_eqb (c_name c) PSR)
     | KPoint => str_eqb (c_name c) PS | KPointRot => str_eqb (c_name c) PSR end) classes = true)
    by (vm_compute; reflexivity).
  rewrite forallb_forall in H. intros Hc. specialize (H c Hc). destruct (c_kind c).
  - apply andb_true_iff in H. destruct H as [A B]. apply negb_true_iff in A, B.
    split; intros E; rewrite E, str_eqb_refl in *; discriminate.
  - now apply str_eqb_true.
  - now apply str_eqb_true.
Qed.

Lemma Forall_flat_map_nil {A B} (f : A -> list B) l : Forall (fun x => f x = []) l <-> flat_map f l = [].
Proof.
  induction l as [|a l IH]; simpl; [split; auto|]. rewrite Forall_cons_iff, IH. split.
  - intros [-> ->]. reflexivity.
  - intros H. apply app_eq_nil in H. exact H.
Qed.

(** ---- in_order ---- *)
Lemma insert_kv_in kv m x : In x (insert_kv kv m) <-> x = kv \/ In x m.
Proof.
  induction m as [|a m IH]; simpl; [intuition auto|].
  destruct (str_ltb (fst kv) (fst a)); simpl; [intuition auto|]. rewrite IH. intuition auto.
Qed.
Lemma in_order_in m x : In x (in_order m) <-> In x m.
Proof. unfold in_order. induction m as [|a m IH]; simpl; [tauto|]. rewrite insert_kv_in, IH. intuition auto. Qed.
Lemma in_order_nil m : in_order m = [] -> m = [].
Proof.
  destruct m as [|a m]; auto. intros E. exfalso. assert (H : In a (in_order (a :: m))) by (apply in_order_in; simpl; auto).
  rewrite E in H. destruct H.
Qed.

(** ---- one function object ---- *)
Section B.
  Variable T : Type.
  Implicit Types (f : sfunc T) (fs : list (sfunc T)).

  Definition make f : option fobj :=
    match find_class classes (s_name f) with
    | None => None
    | Some c =>
        let (s, o) := (match s_opts f with [] => (0%Z, new_object c (s_label f)) | _ :: _ => SetExtraParams (new_object c (s_label f)) (s_opts f) end) in
        if (s <? 0)%Z then None else Some o
    end.
  (** extra parameters an object remembers *)
  Definition extra_of f : option smap :=
    match in_order (s_opts f) with
    | (k, _) :: _ => if str_eqb k (lit "method") then
        if str_eqb (s_name f) PS then Some (s_opts f) else if str_eqb (s_name f) PSR then Some [] else None
        else None
    | [] => None
    end.

  Lemma PSMethod_spell v : {m | PSMethod v m /\
     (str_eqb v (lit "bicubic") || str_eqb v (lit "Bicubic") = true /\ m = lit "bicubic" \/
      str_eqb v (lit "bicubic") || str_eqb v (lit "Bicubic") = false /\ str_eqb v (lit "lanczos2") || str_eqb v (lit "Lanczos2") = true /\ m = lit "lanczos2" \/
      str_eqb v (lit "bicubic") || str_eqb v (lit "Bicubic") = false /\ str_eqb v (lit "lanczos2") || str_eqb v (lit "Lanczos2") = false
      /\ str_eqb v (lit "lanczos3") || str_eqb v (lit "Lanczos3") = true /\ m = lit "lanczos3")} +
    {(forall m, ~ PSMethod v m) /\ str_eqb v (lit "bicubic") || str_eqb v (lit "Bicubic") = false /\
       str_eqb v (lit "lanczos2") || str_eqb v (lit "Lanczos2") = false /\ str_eqb v (lit "lanczos3") || str_eqb v (lit "Lanczos3") = false}.
  Proof.
    destruct (str_eqb v (lit "bicubic") || str_eqb v (lit "Bicubic")) eqn:E1.
    { left. exists (lit "bicubic"). split; auto. apply orb_true_iff in E1.
      destruct E1 as [E|E]; apply str_eqb_true in E; subst; constructor. }
    destruct (str_eqb v (lit "lanczos2") || str_eqb v (lit "Lanczos2")) eqn:E2.
    { left. exists (lit "lanczos2"). split; auto. apply orb_true_iff in E2.
      destruct E2 as [E|E]; apply str_eqb_true in E; subst; constructor. }
    destruct (str_eqb v (lit "lanczos3") || str_eqb v (lit "Lanczos3")) eqn:E3.
    { left. exists (lit "lanczos3"). split; [|tauto]. apply orb_true_iff in E3.
      destruct E3 as [E|E]; apply str_eqb_true in E; subst; constructor. }
    right. repeat split; auto. intros m H; destruct H; vm_compute in E1, E2, E3; discriminate.
  Qed.
  Lemma PSR_spell v : PSRSpelling v <->
    str_eqb v (lit "bicubic") || str_eqb v (lit "Bicubic") || str_eqb v (lit "lanczos2") || str_eqb v (lit "Lanczos2") = true.
  Proof.
    rewrite !orb_true_iff, !str_eqb_true. unfold PSRSpelling. cbn [map In].
    fold (lit "bicubic"). fold (lit "Bicubic"). fold (lit "lanczos2"). fold (lit "Lanczos2").
    intuition auto.
  Qed.

  Lemma meth_lit : list_ascii_of_string "method" = lit "method". Proof. reflexivity. Qed.

  Lemma make_ok f : (exists o, make f = Some o) <-> Known (s_name f) /\ Accepts (s_name f) (s_opts f).
  Proof.
    unfold make. destruct (find_class classes (s_name f)) as [c|] eqn:Ec.
    - apply find_class_sound in Ec. destruct Ec as [Hc Hn]. pose proof (kind_name Hc) as HK. rewrite Hn in HK.
      assert (K : Known (s_name f)) by (exists c; auto).
      destruct (s_opts f) as [|kv t] eqn:Eo.
      { cbn. split; [intros _; split; auto; left; reflexivity|eauto]. }
      rewrite <- Eo. unfold SetExtraParams. cbn [new_object fo_class fo_label fo_interp].
      assert (Hne : s_opts f <> []) by (rewrite Eo; discriminate).
      destruct (in_order (s_opts f)) as [|[k v] r] eqn:Ei.
      { apply in_order_nil in Ei. congruence. }
      unfold Accepts. rewrite Ei.
      destruct (c_kind c) eqn:Ek.
      + cbn. split; [intros (o & H); discriminate|].
        intros (_ & [H|(k' & v' & r' & _ & [[H _]|[H _]])]); [congruence|tauto|tauto].
      + destruct (str_eqb k (lit "method")) eqn:Em.
        * apply str_eqb_true in Em. subst k. destruct (PSMethod_spell v) as [(m & Hm & HB)|(HN & B1 & B2 & B3)].
          { split; [intros _; split; auto; right; exists (lit "method"), v, r; split; auto; left; split; [assumption|intros _; exists m; exact Hm]|].
            intros _. destruct HB as [[-> _]|[(-> & -> & _)|(-> & -> & -> & _)]]; cbn; eauto. }
          { rewrite B1, B2, B3. cbn. split; [intros (o & H); discriminate|].
            intros (_ & [H|(k' & v' & r' & E' & [[_ H]|[H _]])]); [congruence| |].
            - inversion E'; subst. destruct (H eq_refl) as (m & Hm). exfalso. eapply HN; eauto.
            - rewrite H in HK. discriminate. }
        * cbn. split; [intros _|eauto]. split; auto. right. exists k, v, r. split; auto. left. split; auto.
          intros E; rewrite E in Em; vm_compute in Em; discriminate.
      + destruct (str_eqb k (lit "method")) eqn:Em.
        * apply str_eqb_true in Em. subst k. destruct (_ || _ || _ || _) eqn:B.
          { cbn. split; [intros _|eauto]. split; auto. right. exists (lit "method"), v, r. split; auto. right. split; auto.
            intros _. now apply PSR_spell. }
          { cbn. split; [intros (o & H); discriminate|].
            intros (_ & [H|(k' & v' & r' & E' & [[H _]|[_ H]])]); [congruence| |].
            - rewrite H in HK. discriminate.
            - inversion E'; subst. apply PSR_spell in H; auto. congruence. }
        * cbn. split; [intros _|eauto]. split; auto. right. exists k, v, r. split; auto. right. split; auto.
          intros E; rewrite E in Em; vm_compute in Em; discriminate.
    - split; [intros (o & H); discriminate|]. intros ((c & Hc & Hn) & _). exfalso. eapply find_class_none; eauto.
  Qed.

  Lemma make_made f o : make f = Some o -> MadeFrom o f /\ fo_extra o = extra_of f /\
    (is_point o = true <-> IsPoint (s_name f)) /\ fo_interp o = None.
  Proof.
    unfold make, extra_of. destruct (find_class classes (s_name f)) as [c|] eqn:Ec; [|discriminate].
    apply find_class_sound in Ec. destruct Ec as [Hc Hn]. pose proof (kind_name Hc) as HK. rewrite Hn in HK.
    assert (P : (match c_kind c with KPlain => false | _ => true end = true) <-> IsPoint (s_name f)).
    { unfold IsPoint. destruct (c_kind c); split; try tauto; try discriminate; auto. }
    destruct (s_opts f) as [|kv t] eqn:Eo.
    { cbn. intros H; inversion H; subst; clear H. cbn. repeat split; auto; try (apply P).
      intros _. right. rewrite Eo. cbn. split; auto. intros (v & r & E); discriminate. }
    rewrite <- Eo. unfold SetExtraParams. cbn [new_object fo_class fo_label fo_interp].
    assert (Hne : s_opts f <> []) by (rewrite Eo; discriminate).
    destruct (in_order (s_opts f)) as [|[k v] r] eqn:Ei; [apply in_order_nil in Ei; congruence|].
    assert (NM : str_eqb k (lit "method") = false -> Asked f (lit "bicubic")).
    { intros Em. right. split; auto. rewrite Ei. intros (v' & r' & E). apply (f_equal (fun l => match l with (a,_)::_ => a | [] => [] end)) in E; cbn in E; rewrite E in Em; vm_compute in Em; discriminate. }
    destruct (c_kind c) eqn:Ek; [discriminate| |].
    - rewrite HK. rewrite str_eqb_refl. destruct (str_eqb k (lit "method")) eqn:Em.
      + apply str_eqb_true in Em. subst k. destruct (PSMethod_spell v) as [(m & Hm & HB)|(HN & B1 & B2 & B3)].
        * assert (A : Asked f m) by (left; exists v, r; split; auto).
          destruct HB as [[-> Hb]|[(-> & -> & Hb)|(-> & -> & -> & Hb)]]; cbn; intros H; inversion H; subst; clear H;
            cbn; (split; [constructor; cbn; auto|]); unfold is_point; cbn; rewrite Ek; repeat split; auto; try (intros _; apply P; auto); rewrite HK in *; tauto.
        * rewrite B1, B2, B3. discriminate.
      + cbn. intros H; inversion H; subst; clear H. cbn. split; [constructor; cbn; auto|].
        unfold is_point; cbn; rewrite Ek. repeat split; auto; rewrite HK in *; tauto.
    - assert (EP : str_eqb (s_name f) PS = false) by (rewrite HK; reflexivity). rewrite EP, HK. rewrite str_eqb_refl.
      destruct (str_eqb k (lit "method")) eqn:Em.
      + apply str_eqb_true in Em. subst k. destruct (_ || _ || _ || _) eqn:B; [|discriminate].
        cbn. intros H; inversion H; subst; clear H. cbn. split.
        { constructor; cbn; auto. rewrite HK. intros [K|[_ K]]; [discriminate|]. left. exists v, r. split; auto. exact (K v r Ei). }
        unfold is_point; cbn; rewrite Ek. repeat split; auto. rewrite HK in *. tauto.
      + cbn. intros H; inversion H; subst; clear H. cbn. split; [constructor; cbn; auto|].
        unfold is_point; cbn; rewrite Ek. repeat split; auto. rewrite HK in *. tauto.
  Qed.

  (** ---- the loop of AddFunctions ---- *)
  Definition step (psf : option (Z * Z)) (m : fmodel) f : Z + fmodel :=
    match find_class classes (s_name f) with
    | None => inl (-1)%Z
    | Some c =>
        let (s, o) := (match s_opts f with [] => (0%Z, new_object c (s_label f)) | _ :: _ => SetExtraParams (new_object c (s_label f)) (s_opts f) end) in
        if (s <? 0)%Z then inl s
        else let (s2, m') := AddFunction psf m o in if (s2 <? 0)%Z then inl s2 else inr m'
    end.
  Definition steps psf fs (st : Z + fmodel) : Z + fmodel :=
    fold_left (fun st f => match st with inl s => inl s | inr m => step psf m f end) fs st.

  Lemma add_one_step psf fs i f m : nth_error fs i = Some f ->
    add_one psf (map s_name fs) (map s_label fs) (map s_opts fs) i m = Ok (step psf m f).
  Proof.
    intros Hi. unfold add_one, step.
    rewrite (proj2 (get_Ok_iff _ _ _) (map_nth_error s_name _ _ Hi)). cbn [bind].
    destruct (find_class classes (s_name f)) as [c|]; auto.
    rewrite (proj2 (get_Ok_iff _ _ _) (map_nth_error s_label _ _ Hi)). cbn [bind].
    destruct (map s_opts fs) as [|x l] eqn:Em.
    { destruct fs; [destruct i; discriminate|discriminate]. }
    rewrite <- Em, (proj2 (get_Ok_iff _ _ _) (map_nth_error s_opts _ _ Hi)). cbn [bind].
    destruct (s_opts f) as [|kv t]; cbn [bind].
    - cbn. destruct (AddFunction _ _ _) as [s2 m']. destruct (s2 <? 0)%Z; reflexivity.
    - destruct (SetExtraParams _ _) as [s o]. destruct (s <? 0)%Z; auto.
      destruct (AddFunction _ _ _) as [s2 m']. destruct (s2 <? 0)%Z; reflexivity.
  Qed.

  Lemma add_loop psf fs st :
    for_ (List.length (map s_name fs)) (fun i st =>
            match st with
            | inl s => Ok (inl s)
            | inr m => add_one psf (map s_name fs) (map s_label fs) (map s_opts fs) i m
            end) st = Ok (steps psf fs st).
  Proof.
    rewrite map_length. unfold for_.
    rewrite (@for_foldM _ _ (fun f st => match st with inl s => Ok (inl s) | inr m => Ok (step psf m f) end) fs).
    - unfold steps. revert st. induction fs as [|f fs IH]; intros st; cbn [foldM fold_left]; auto.
      destruct st as [s|m]; cbn [bind]; apply IH.
    - intros i f [s|m] Hi; auto. cbn [Nat.add]. now apply add_one_step.
  Qed.

  Lemma setup_interp psf t : (fst (SetupPsfInterpolation psf t) <? 0)%Z = false <-> PsfOk psf.
  Proof.
    unfold SetupPsfInterpolation, PsfOk. destruct psf as [[c r]|]; cbn.
    - destruct ((c <? 4)%Z || (r <? 4)%Z) eqn:E; cbn.
      + split; [discriminate|]. intros (c' & r' & H & ? & ?). inversion H; subst.
        apply orb_true_iff in E. destruct E as [E|E]; apply Z.ltb_lt in E; lia.
      + apply orb_false_iff in E. destruct E as [E1 E2]. apply Z.ltb_ge in E1, E2.
        destruct ((t =? 1)%Z || _ || _); cbn; split; auto; intros _; exists c, r; auto.
    - split; [discriminate|]. intros (c & r & H & _). discriminate.
  Qed.

  Definition Inv psf (m : fmodel) : Prop := fm_interp m <> None -> PsfOk psf.

  Definition ready psf f : Prop := (Known (s_name f) /\ Accepts (s_name f) (s_opts f)) /\ (IsPoint (s_name f) -> PsfOk psf).

  (** what adding one function does *)
  Lemma step_spec psf m f : Inv psf m ->
    (exists s, (s < 0)%Z /\ step psf m f = inl s /\ ~ ready psf f) \/
    (exists o, make f = Some o /\ ready psf f /\
       step psf m f = inr (if is_point o then
          match fm_interp m with
          | Some i => mkFmodel (fm_funcs m ++ [hand o (Some i)]) (Some i)
          | None => let i := snd (SetupPsfInterpolation psf (interpolationMap (fo_method o))) in
                    mkFmodel (fm_funcs m ++ [hand o i]) i
          end
        else mkFmodel (fm_funcs m ++ [o]) (fm_interp m))).
  Proof.
    intros HI. pose proof (make_ok f) as MO. pose proof (@make_made f) as MM. unfold step, make in *.
    destruct (find_class classes (s_name f)) as [c|] eqn:Ec.
    2:{ left. exists (-1)%Z. split; [lia|]. split; auto. intros [H _]. apply MO in H. destruct H; discriminate. }
    destruct (match s_opts f with [] => _ | _ => _ end) as [s o] eqn:Es.
    destruct (s <? 0)%Z eqn:E0.
    { left. exists s. apply Z.ltb_lt in E0. split; auto. split; auto. intros [H _]. apply MO in H. destruct H; discriminate. }
    assert (KA : Known (s_name f) /\ Accepts (s_name f) (s_opts f)) by (apply MO; eauto).
    destruct (MM o eq_refl) as (_ & _ & HP & _).
    unfold AddFunction. destruct (is_point o) eqn:EP.
    - assert (IP : IsPoint (s_name f)) by (apply HP; reflexivity).
      destruct (fm_interp m) as [i|] eqn:Ei.
      + right. exists o. split; auto. split; [|rewrite EP; try rewrite ES; reflexivity]. split; auto. intros _. apply HI. rewrite Ei. discriminate.
      + pose proof (setup_interp psf (interpolationMap (fo_method o))) as SI.
        destruct (SetupPsfInterpolation psf (interpolationMap (fo_method o))) as [r i] eqn:ES. cbn [fst snd] in *.
        destruct (r <? 0)%Z eqn:Er.
        * left. exists (-1)%Z. split; [lia|]. split; auto. intros [_ H]. apply H in IP. apply SI in IP. discriminate.
        * right. exists o. split; auto. split; [|rewrite EP; try rewrite ES; reflexivity]. split; auto. intros _. apply SI; reflexivity.
    - right. exists o. split; auto. split; [|rewrite EP; try rewrite ES; reflexivity]. split; auto. intros IP. apply HP in IP. congruence.
  Qed.

  (** like [o], apart from the interpolator it has been handed *)
  Definition MadeBy (o' : fobj) f : Prop := exists o i, make f = Some o /\ (o' = o \/ (is_point o = true /\ o' = hand o i)).

  Lemma steps_inl psf fs s : steps psf fs (inl s) = inl s.
  Proof. unfold steps. induction fs; simpl; auto. Qed.

  Lemma steps_spec psf fs : forall m, Inv psf m ->
    (exists s, (s < 0)%Z /\ steps psf fs (inr m) = inl s /\ ~ Forall (ready psf) fs) \/
    (exists os i, steps psf fs (inr m) = inr (mkFmodel (fm_funcs m ++ os) i) /\ Forall (ready psf) fs /\ Forall2 MadeBy os fs).
  Proof.
    induction fs as [|f fs IH]; intros m HI.
    - right. exists [], (fm_interp m). cbn. rewrite app_nil_r. destruct m; auto.
    - unfold steps. cbn [fold_left]. fold (steps psf fs (step psf m f)).
      destruct (step_spec f HI) as [(s & Hs & E & HN)|(o & Hm & HR & E)]; rewrite E.
      + left. exists s. split; auto. rewrite steps_inl. split; auto. intros HF. inversion HF; tauto.
      + set (m' := if is_point o then _ else _) in *.
        assert (exists o', fm_funcs m' = fm_funcs m ++ [o'] /\ MadeBy o' f).
        { unfold m'. destruct (is_point o) eqn:EP.
          - destruct (fm_interp m) as [i|]; cbn; eexists; (split; [reflexivity|]); eexists o, _; split; eauto.
          - cbn. eexists; split; [reflexivity|]. exists o, None. auto. }
        destruct H as (o' & Ef & Mo).
        assert (HI' : Inv psf m').
        { intros Hn. unfold m' in Hn. destruct (is_point o) eqn:EP.
          - apply HR. destruct (make_made Hm) as (_ & _ & HP & _). apply HP; auto.
          - cbn in Hn. auto. }
        destruct (IH m' HI') as [(s & Hs & E' & HN)|(os & i & E' & HF & H2)].
        * left. exists s. split; auto. split; auto. intros HF. apply HN. inversion HF; auto.
        * right. exists (o' :: os), i. rewrite E', Ef, <- app_assoc. split; [reflexivity|]. split; constructor; auto.
  Qed.

  Lemma ready_buildable psf fs : Forall (ready psf) fs <-> Buildable psf fs.
  Proof.
    unfold Buildable, ready. split.
    - intros H. split.
      + eapply Forall_impl; [|exact H]. cbn. tauto.
      + intros HE. apply Exists_exists in HE. destruct HE as (f & Hf & IP). rewrite Forall_forall in H. apply (H f Hf); auto.
    - intros [H HE]. apply Forall_forall. intros f Hf. rewrite Forall_forall in H. split; auto.
      intros IP. apply HE. apply Exists_exists. eauto.
  Qed.

  Lemma MadeBy_props o' f : MadeBy o' f -> MadeFrom o' f /\ fo_extra o' = extra_of f /\ (is_point o' = true <-> IsPoint (s_name f)).
  Proof.
    intros (o & i & Hm & HO). destruct (make_made Hm) as (HM & HX & HP & _).
    destruct HO as [->|[_ ->]]; auto. split; [|auto]. destruct HM. constructor; auto.
  Qed.

  (** ---- parameter names ---- *)
  Definition names_of f : list text := flat_map (fun c => if list_eq_dec ascii_dec (s_name f) (c_name c) then c_params c else []) classes.
  Lemma names_of_class f c : In c classes -> c_name c = s_name f -> names_of f = c_params c.
  Proof.
    intros Hc Hn. unfold names_of.
    assert (H : forall l c, find_class l (c_name c) = Some c -> NoDup (map c_name l) ->
       flat_map (fun d => if list_eq_dec ascii_dec (c_name c) (c_name d) then c_params d else []) l = c_params c).
    { clear. induction l as [|a l IH]; intros c; cbn [find_class flat_map map]; [discriminate|].
      intros H ND. inversion ND as [|? ? HNI ND']; subst.
      destruct (str_eqb (c_name c) (c_name a)) eqn:E.
      - inversion H; subst. destruct (list_eq_dec _ _ _); [|congruence].
        rewrite (proj1 (Forall_flat_map_nil _ _)); [apply app_nil_r|].
        apply Forall_forall. intros d Hd. destruct (list_eq_dec _ _ _) as [e1|]; auto. exfalso. apply HNI. rewrite e1. now apply in_map.
      - destruct (list_eq_dec _ _ _) as [e|]; [rewrite e, str_eqb_refl in E; discriminate|]. cbn [app]. now apply IH. }
    rewrite <- Hn. apply H; [now apply class_unique|].
    assert (ND : nodup (list_eq_dec ascii_dec) (map c_name classes) = map c_name classes) by (vm_compute; reflexivity).
    rewrite <- ND. apply NoDup_nodup.
  Qed.

  Lemma made_names o f : MadeFrom o f -> GetParameterNames o = names_of f.
  Proof. intros [[H1 H2] _ _]. unfold GetParameterNames. symmetry. now apply names_of_class. Qed.

  (** ---- the interpolator ---- *)
  Lemma asked_code f m : Asked f m -> MethodCode m (interpolationMap m) /\ (1 <= interpolationMap m <= 3)%Z.
  Proof.
    intros [(v & t & _ & H)|[_ ->]]; [destruct H|]; (split; [constructor|vm_compute; split; discriminate]).
  Qed.
  Lemma setup_some psf t : PsfOk psf -> (1 <= t <= 3)%Z -> snd (SetupPsfInterpolation psf t) = Some t.
  Proof.
    intros (c & r & -> & Hc & Hr) Ht. unfold SetupPsfInterpolation.
    destruct (Z.ltb_spec c 4), (Z.ltb_spec r 4); try lia. cbn.
    assert (H1 : t = 1%Z \/ t = 2%Z \/ t = 3%Z) by lia. destruct H1 as [->|[->| ->]]; reflexivity.
  Qed.

  Definition AllHave (t : Z) (os : list fobj) : Prop := Forall (fun o => is_point o = true -> fo_interp o = Some t) os.

  Lemma steps_have psf t fs : forall m m', Inv psf m -> steps psf fs (inr m) = inr m' -> fm_interp m = Some t ->
    AllHave t (fm_funcs m) -> fm_interp m' = Some t /\ AllHave t (fm_funcs m').
  Proof.
    induction fs as [|f fs IH]; intros m m' HI.
    - cbn. intros H; inversion H; subst; auto.
    - unfold steps. cbn [fold_left]. fold (steps psf fs (step psf m f)). intros E Hi HA.
      destruct (step_spec f HI) as [(s & Hs & E1 & HN)|(o & Hm & HR & E1)]; rewrite E1 in E.
      { rewrite steps_inl in E. discriminate. }
      rewrite Hi in E. destruct (is_point o) eqn:EP; refine (IH _ _ _ E _ _); cbn; auto.
      + intros _. apply HI. rewrite Hi. discriminate.
      + apply Forall_app. split; [exact HA|apply Forall_cons; [intros _; reflexivity|apply Forall_nil]].
      + intros _. apply HI. rewrite Hi. discriminate.
      + apply Forall_app. split; [exact HA|apply Forall_cons; [congruence|apply Forall_nil]].
  Qed.

  Lemma steps_first psf fs f t : Forall (fun f => s_name f = PSR -> LowerCase f) fs -> FirstPoint fs f ->
    forall m m', Inv psf m -> steps psf fs (inr m) = inr m' -> fm_interp m = None ->
    Forall (fun o => is_point o = false) (fm_funcs m) -> (forall mm, Asked f mm -> MethodCode mm t) ->
    AllHave t (fm_funcs m').
  Proof.
    intros HL (a & b & -> & IP & HA). revert HL. induction HA as [|g a HG HA IH]; intros HL m m' HI E Hi HF HT.
    - cbn [app] in *. unfold steps in E. cbn [fold_left] in E. fold (steps psf b (step psf m f)) in E.
      destruct (step_spec f HI) as [(s & Hs & E1 & HN)|(o & Hm & HR & E1)]; rewrite E1 in E.
      { rewrite steps_inl in E. discriminate. }
      destruct (make_made Hm) as (HM & _ & HP & _). rewrite (proj2 HP IP), Hi in E. cbv zeta in E.
      assert (HAs : Asked f (fo_method o)).
      { apply (@mf_method _ _ _ HM). destruct IP as [IP|IP]; [left; exact IP|right; split; [exact IP|]]. inversion HL; auto. }
      destruct (asked_code HAs) as [HC HC3]. assert (HT' := HT _ HAs).
      assert (Et : interpolationMap (fo_method o) = t) by (destruct HT'; vm_compute; reflexivity).
      rewrite setup_some in E; [|apply HR; exact IP|exact HC3]. rewrite Et in E.
      refine (proj2 (@steps_have psf t b _ m' _ E _ _)); cbn; auto.
      + intros _. apply HR, IP.
      + apply Forall_app. split.
        * eapply Forall_impl; [|exact HF]. cbn. intros. congruence.
        * constructor; [|constructor]. cbn. auto.
    - cbn [app] in *. inversion HL as [|? ? HL1 HL2]; subst. unfold steps in E. cbn [fold_left] in E. fold (steps psf (a ++ f :: b) (step psf m g)) in E.
      destruct (step_spec g HI) as [(s & Hs & E1 & HN)|(o & Hm & HR & E1)]; rewrite E1 in E.
      { rewrite steps_inl in E. discriminate. }
      destruct (make_made Hm) as (HM & _ & HP & _). destruct (is_point o) eqn:EP.
      { exfalso. apply HG. apply HP. reflexivity. }
      refine (IH HL2 _ _ _ E _ _ HT); cbn; auto.
      apply Forall_app. split; auto.
  Qed.

  (** ---- PopulateParameterNames ---- *)
  Definition pn_body (p : bool * fobj) (labels : list str) : res (list str) :=
    Ok ((if fst p then labels ++ [lit "X0"; lit "Y0"] else labels) ++ GetParameterNames (snd p)).

  Lemma loop_flags {S} (body : bool * fobj -> S -> res S) (flags : list bool) (os : list fobj) s :
    List.length flags = List.length os ->
    for_ (List.length os) (fun n s => do o <- get os n; do flag <- get flags n; body (flag, o) s) s
    = foldM body (combine flags os) s.
  Proof.
    intros HL. unfold for_. replace (List.length os) with (List.length (combine flags os)) by (rewrite combine_length; lia).
    apply for_foldM. intros i p t Hi. cbn [Nat.add].
    assert (H : nth_error flags i = Some (fst p) /\ nth_error os i = Some (snd p)).
    { revert Hi HL. clear. revert flags os. induction i as [|i IH]; intros [|a flags] [|b os]; cbn; try discriminate.
      - intros H _; inversion H; auto.
      - intros H L. apply IH; auto. }
    destruct H as [H1 H2]. rewrite (proj2 (get_Ok_iff _ _ _) H2), (proj2 (get_Ok_iff _ _ _) H1). cbn [bind]. destruct p; reflexivity.
  Qed.

  Lemma pn_rest fs : forall os l, Forall2 MadeFrom os fs ->
    foldM pn_body (combine (repeat false (List.length fs)) os) l = Ok (l ++ flat_map names_of fs).
  Proof.
    induction fs as [|f fs IH]; intros os l H; inversion H as [|o ? os' ? HM HF]; subst; cbn [List.length repeat combine foldM flat_map].
    - now rewrite app_nil_r.
    - cbn [bind pn_body fst snd]. rewrite (IH os' _ HF), (made_names HM), <- app_assoc. reflexivity.
  Qed.

  Lemma combine_app {A B} (a a' : list A) (b b' : list B) : List.length a = List.length b ->
    combine (a ++ a') (b ++ b') = combine a b ++ combine a' b'.
  Proof. revert b; induction a as [|x a IH]; intros [|y b] H; cbn in *; try discriminate; auto. rewrite IH; auto. Qed.

  Lemma pn_blocks (bs : list (sblock T)) : Forall (fun b => s_funcs b <> []) bs -> forall os l, Forall2 MadeFrom os (sall bs) ->
    foldM pn_body (combine (flag_list (map as_blk bs)) os) l = Ok (l ++ param_names bs).
  Proof.
    induction 1 as [|b bs Hb HF IH]; intros os l H.
    - inversion H; subst. cbn. now rewrite app_nil_r.
    - unfold sall in H. cbn [flat_map] in H. apply Forall2_app_inv_r in H. destruct H as (o1 & o2 & H1 & H2 & ->).
      unfold flag_list, param_names. cbn [map flat_map]. fold (flag_list (map as_blk bs)). fold (param_names bs).
      cbn [as_blk Params_Spec.b_funcs]. destruct (s_funcs b) as [|f fs] eqn:Ef; [congruence|].
      inversion H1 as [|o ? o1' ? HM HF1]; subst. cbn [map flat_map List.length].
      rewrite map_length.
      rewrite combine_app by (cbn; rewrite repeat_length; f_equal; symmetry; exact (Forall2_len HF1)).
      rewrite foldM_app. cbn [combine foldM bind pn_body fst snd]. rewrite (@pn_rest fs o1' _ HF1). cbn [bind].
      rewrite (IH o2 _ H2). rewrite (made_names HM). fold (names_of f).
      change (flat_map (fun f => flat_map (fun c => if list_eq_dec ascii_dec (s_name f) (c_name c) then c_params c else []) classes) fs)
        with (flat_map names_of fs).
      f_equal. rewrite <- !app_assoc. cbn [app]. rewrite <- !app_assoc. reflexivity.
  Qed.

  Lemma flag_list_length (bs : list (blk T)) : List.length (flag_list bs) = List.length (sizes bs).
  Proof. rewrite <- zip_fst, <- zip_snd, !map_length. reflexivity. Qed.
  Lemma sizes_sall (bs : list (sblock T)) : sizes (map as_blk bs) = map (fun f => List.length (s_vals f)) (sall bs).
  Proof.
    unfold sizes, sall. induction bs as [|b bs IH]; auto. cbn [map flat_map]. rewrite IH, map_app. f_equal.
    cbn [as_blk Params_Spec.b_funcs]. now rewrite map_map.
  Qed.
  Lemma as_blk_ok (bs : list (sblock T)) : bs <> [] -> Forall (fun b => s_funcs b <> []) bs -> blocks_ok (map as_blk bs).
  Proof.
    intros H1 H2. split; [destruct bs; [congruence|discriminate]|]. apply Forall_map.
    eapply Forall_impl; [|exact H2]. cbn. intros b H. destruct (s_funcs b); [congruence|discriminate].
  Qed.

  Lemma flat_names_length fs : List.length (flat_map names_of fs) = list_sum (map (fun f => List.length (names_of f)) fs).
  Proof. induction fs as [|f fs IH]; auto. cbn [flat_map map list_sum fold_right]. rewrite app_length, IH. reflexivity. Qed.
  Lemma param_names_length (bs : list (sblock T)) :
    List.length (param_names bs) = list_sum (map (fun f => List.length (names_of f)) (sall bs)) + 2 * List.length bs.
  Proof.
    unfold param_names, sall. induction bs as [|b bs IH]; auto. cbn [flat_map List.length]. rewrite app_length, map_app, list_sum_app, IH.
    cbn [List.length]. rewrite flat_names_length. lia.
  Qed.

  Lemma Forall2_impl' {A B} (P Q : A -> B -> Prop) l l' : (forall a b, P a b -> Q a b) -> Forall2 P l l' -> Forall2 Q l l'.
  Proof. intros H; induction 1; constructor; auto. Qed.

  Lemma add_functions_ok psf (bs : list (sblock T)) : bs <> [] -> Forall (fun b => s_funcs b <> []) bs ->
    let run := AddFunctions psf (map s_name (sall bs)) (map s_label (sall bs)) (sstarts bs) (map s_opts (sall bs)) in
    (exists s, (s < 0)%Z /\ run = Ok (s, None) /\ ~ Buildable psf (sall bs)) \/
    (exists os, run = Ok (0%Z, Some (mkBuilt os (flag_list (map as_blk bs)) (param_names bs) (List.length (param_names bs)))) /\
       Buildable psf (sall bs) /\ Forall2 MadeBy os (sall bs) /\
       (forall f t, Forall (fun f => s_name f = PSR -> LowerCase f) (sall bs) -> FirstPoint (sall bs) f ->
          (forall mm, Asked f mm -> MethodCode mm t) -> AllHave t os)).
  Proof.
    intros Hne Hb run. unfold run, AddFunctions. rewrite add_loop. cbn [bind].
    assert (HI : Inv psf (mkFmodel [] None)) by (intros H; cbn in H; congruence).
    destruct (steps_spec (sall bs) HI) as [(s & Hs & E & HN)|(os & i & E & HF & H2)]; rewrite E.
    - left. exists s. split; auto. split; auto. rewrite <- ready_buildable. exact HN.
    - right. exists os. cbn [fm_funcs app].
      assert (HL : List.length os = List.length (sizes (map as_blk bs))).
      { rewrite sizes_sall, map_length. exact (Forall2_len H2). }
      assert (H2' : Forall2 MadeFrom os (sall bs)).
      { eapply Forall2_impl'; [|exact H2]. intros a b H. exact (proj1 (MadeBy_props H)). }
      rewrite HL. unfold sstarts. rewrite (defsets_ok (as_blk_ok Hne Hb)). cbn [bind].
      unfold PopulateParameterNames.
      rewrite (@for_ext _ _ (fun n s => do o <- get os n; do flag <- get (flag_list (map as_blk bs)) n; pn_body (flag, o) s)).
      2:{ intros k l Hk. reflexivity. }
      rewrite loop_flags by (rewrite flag_list_length; auto).
      rewrite (@pn_blocks bs Hb os [] H2'). cbn [bind app].
      split; [|split; [apply ready_buildable; exact HF|split; [exact H2|]]].
      + do 4 f_equal. unfold nParamsTot. rewrite fold_add, starts_length, map_length, param_names_length. cbn [Nat.add]. f_equal.
        f_equal. clear -H2'. induction H2' as [|o f os fs HM HF IH]; auto. cbn [map]. rewrite IH, (made_names HM). reflexivity.
      + intros f t HL1 HFP HT. exact (@steps_first psf (sall bs) f t HL1 HFP _ _ HI E eq_refl (Forall_nil _) HT).
  Qed.
End B.

Lemma starts_ge {T} (bs : list (blk T)) : forall k n, In n (starts k bs) -> k <= n.
Proof. induction bs as [|b bs IH]; intros k n; cbn; [tauto|]. intros [<-|H]; auto. apply IH in H. lia. Qed.
Lemma nth_repeat_false n i : nth_error (repeat false n) i <> Some true.
Proof. intros H. apply nth_error_In, repeat_spec in H. discriminate. Qed.
Lemma flag_in {T} (bs : list (blk T)) : Forall (fun b => Params_Spec.b_funcs b <> []) bs -> forall k n,
  nth_error (flag_list bs) n = Some true <-> In (k + n) (starts k bs).
Proof.
  induction 1 as [|b bs Hb HF IH]; intros k n; cbn [flag_list flat_map starts].
  - destruct n; cbn; split; try discriminate; tauto.
  - fold (flag_list bs). destruct (Params_Spec.b_funcs b) as [|f t] eqn:Ef; [congruence|]. cbn [List.length].
    destruct (Nat.lt_ge_cases n (S (List.length t))) as [H|H].
    + rewrite nth_error_app1 by (cbn; rewrite repeat_length; exact H). destruct n as [|n]; cbn.
      * split; auto.
      * split; [intros K; exfalso; exact (nth_repeat_false K)|]. intros [K|K]; [lia|]. apply starts_ge in K. lia.
    + rewrite nth_error_app2 by (cbn; rewrite repeat_length; exact H). cbn [List.length]. rewrite repeat_length.
      rewrite (IH (k + S (List.length t)) (n - S (List.length t))).
      replace (k + S (List.length t) + (n - S (List.length t))) with (k + n) by lia. cbn. split; auto.
      intros [K|K]; [lia|auto].
Qed.

Lemma build_ok (T : Type) psf (bs : list (sblock T)) : bs <> [] -> Forall (fun b => s_funcs b <> []) bs ->
  let run := AddFunctions psf (map s_name (sall bs)) (map s_label (sall bs)) (sstarts bs) (map s_opts (sall bs)) in
  (Buildable psf (sall bs) <-> exists m, run = Ok (0%Z, Some m)) /\
  (~ Buildable psf (sall bs) <-> exists s, (s < 0)%Z /\ run = Ok (s, None)) /\
  (forall m, run = Ok (0%Z, Some m) ->
     Forall2 MadeFrom (b_funcs m) (sall bs) /\
     b_nParamsTot m = List.length (param_names bs) /\
     (forall i, i < List.length (param_names bs) -> exists s, nth_error (param_names bs) i = Some s /\ GetParameterName m i = Ok s) /\
     (forall n, nth_error (b_flags m) n = Some true <-> In n (sstarts bs))).
Proof.
  intros Hne Hb run. destruct (add_functions_ok psf Hne Hb) as [(s & Hs & E & HN)|(os & E & HB & H2 & _)]; fold run in E; rewrite E.
  - split; [|split].
    + split; [tauto|]. intros (m & H). discriminate.
    + split; [eauto|tauto].
    + intros m H. discriminate.
  - split; [|split].
    + split; eauto.
    + split; [tauto|]. intros (s & _ & H). discriminate.
    + intros m H. inversion H; subst; clear H. cbn [b_funcs b_nParamsTot b_flags]. split; [|split; [reflexivity|split]].
      * eapply Forall2_impl'; [|exact H2]. intros a b H. exact (proj1 (MadeBy_props H)).
      * intros i Hi. destruct (@get_lt _ (param_names bs) i Hi) as (s & Es). exists s. split; [now apply get_Ok_iff|].
        unfold GetParameterName. cbn [b_nParamsTot b_labels]. destruct (Nat.ltb_spec i (List.length (param_names bs))); [exact Es|lia].
      * intros n. exact (@flag_in T (map as_blk bs) (proj2 (as_blk_ok Hne Hb)) 0 n).
Qed.

Lemma interpolator_ok (T : Type) psf (bs : list (sblock T)) m f t : bs <> [] -> Forall (fun b => s_funcs b <> []) bs ->
  AddFunctions psf (map s_name (sall bs)) (map s_label (sall bs)) (sstarts bs) (map s_opts (sall bs)) = Ok (0%Z, Some m) ->
  Forall (fun f => s_name f = PSR -> LowerCase f) (sall bs) -> FirstPoint (sall bs) f ->
  (exists a, Asked f a /\ MethodCode a t) ->
  Forall2 (fun o f => IsPoint (s_name f) -> fo_interp o = Some t) (b_funcs m) (sall bs).
Proof.
  intros Hne Hb E HL HF (a & Ha & Hc).
  destruct (add_functions_ok psf Hne Hb) as [(s & Hs & E' & HN)|(os & E' & HB & H2 & H3)]; rewrite E in E'; inversion E'; subst; clear E'.
  cbn [b_funcs].
  assert (HT : forall mm, Asked f mm -> MethodCode mm t).
  { intros mm Hm. replace mm with a; auto. destruct Ha as [(v & r & E1 & H1)|[N1 ->]], Hm as [(v' & r' & E2 & H4)|[N2 ->]]; auto.
    - rewrite E1 in E2. inversion E2; subst. clear -H1 H4. inversion H1; subst; inversion H4; subst; reflexivity.
    - exfalso; eauto.
    - exfalso; eauto. }
  pose proof (H3 f t HL HF HT) as HA. clear -HA H2. unfold AllHave in HA.
  induction H2 as [|o g os gs HM HF IH]; constructor; inversion HA; subst; auto.
  intros IP. apply H1. apply (MadeBy_props HM). exact IP.
Qed.
