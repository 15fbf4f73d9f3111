(** Proofs for C73: parameters and limits on their way to the solver. *)
From Coq Require Import ZArith List Bool Ascii String Lia.
From Verif Require Import Base Num Fit_Model Fit_Spec Fit_Proof StrUtil_Model StrUtil_Proof Config_Model Build_Model Params_Spec Build_Spec Build_Proof Save_Spec
  Opt_Model Start_Model Finish_Model Finish_Spec.
Import ListNotations.
Local Open Scope list_scope.
Set Implicit Arguments.
Unset Strict Implicit.

Definition role_of (n : str) : role :=
  if str_eqb n X0_string then CentreX else if str_eqb n Y0_string then CentreY else Other.

Lemma class_roles c : In c classes -> map role_of (c_params c) = repeat Other (List.length (c_params c)).
Proof.
  assert (H : forallb (fun c => forallb (fun n => match role_of n with Other => true | _ => false end) (c_params c)) classes = true)
    by (vm_compute; reflexivity).
  rewrite forallb_forall in H. intros Hc. specialize (H c Hc). rewrite forallb_forall in H.
  induction (c_params c) as [|n l IH]; [reflexivity|]. cbn [map List.length repeat]. f_equal.
  - specialize (H n (or_introl eq_refl)). destruct (role_of n); congruence.
  - apply IH. intros x Hx. apply H. now right.
Qed.

Section Roles.
  Variable T : Type.
  Lemma func_roles (f : sfunc T) : Sized f -> map role_of (names_of f) = repeat Other (List.length (s_vals f)).
  Proof.
    intros (c & H1 & H2 & H3). rewrite (names_of_class H1 H2), H3. now apply class_roles.
  Qed.
  Lemma funcs_roles (fs : list (sfunc T)) : Forall (@Sized T) fs ->
    map role_of (flat_map (@names_of T) fs) = repeat Other (List.length (flat_map s_vals fs)).
  Proof.
    induction 1 as [|f fs H HF IH]; [reflexivity|]. cbn [flat_map]. rewrite map_app, app_length, repeat_app, IH. f_equal. now apply func_roles.
  Qed.
  Lemma names_roles (bs : list (sblock T)) : Forall (@Sized T) (sall bs) -> map role_of (param_names bs) = roles bs.
  Proof.
    unfold sall. induction bs as [|b bs IH]; intros H; [reflexivity|].
    cbn [flat_map] in H. apply Forall_app in H. destruct H as [H1 H2].
    change (param_names (b :: bs)) with ((X0_string :: Y0_string :: flat_map (@names_of T) (s_funcs b)) ++ param_names bs).
    change (roles (b :: bs)) with ((CentreX :: CentreY :: repeat Other (List.length (flat_map s_vals (s_funcs b)))) ++ roles bs).
    rewrite map_app, (IH H2). f_equal. cbn [map]. rewrite (funcs_roles H1). reflexivity.
  Qed.
End Roles.

Section Hand.
  Variable T : Type.
  Variable N : Num T.
  Variables offX offY : Z.
  Variable bs : list (sblock T).
  Variable b : built.
  Variable psf : option (Z * Z).
  Hypothesis HB : bs <> [] /\ Forall (fun b => s_funcs b <> []) bs /\ Forall (@Sized T) (sall bs).
  Hypothesis HA : AddFunctions psf (map s_name (sall bs)) (map s_label (sall bs)) (sstarts bs) (map s_opts (sall bs)) = Ok (0%Z, Some b).

  Lemma hand_n : b_nParamsTot b = List.length (roles bs).
  Proof.
    destruct (HB) as (H1 & H2 & H3). destruct (@build_ok T psf bs H1 H2) as (_ & _ & H). destruct (H b HA) as (_ & E & _).
    rewrite E, <- (names_roles H3), map_length. reflexivity.
  Qed.
  Lemma hand_name i r : nth_error (roles bs) i = Some r ->
    exists s, nth_error (param_names bs) i = Some s /\ GetParameterName b i = Ok s /\ role_of s = r.
  Proof.
    destruct (HB) as (H1 & H2 & H3). destruct (@build_ok T psf bs H1 H2) as (_ & _ & H). destruct (H b HA) as (_ & _ & E & _).
    intros Hr. rewrite <- (names_roles H3) in Hr. rewrite nth_error_map in Hr.
    destruct (nth_error (param_names bs) i) as [s|] eqn:Es; [|discriminate]. injection Hr as Hr.
    assert (Hi : i < List.length (param_names bs)) by (apply nth_error_Some; congruence).
    destruct (E i Hi) as (s' & E1 & E2). rewrite Es in E1. injection E1 as <-. eauto.
  Qed.
  Lemma roles_pos : 0 < List.length (roles bs).
  Proof. destruct (HB) as (H1 & _). destruct bs as [|x l]; [congruence|]. cbn. lia. Qed.

  Notation rel := (relative N offX offY).

  Lemma start_ok (values : list T) : List.length values = List.length (roles bs) ->
    start_values N b (offX, offY) values = Ok (map (fun rv => rel (fst rv) (snd rv)) (combine (roles bs) values)).
  Proof.
    intros HL. unfold start_values. rewrite hand_n.
    set (F := fun rv : role * T => rel (fst rv) (snd rv)). set (L := combine (roles bs) values).
    assert (LL : List.length L = List.length (roles bs)) by (unfold L; rewrite combine_length; lia).
    match goal with |- for_ ?n ?f ?s0 = _ => destruct (@for_inv _ (fun i v => v = firstn i (map F L) ++ repeat (nofZ N 0) (n - i)) f n s0) as (v' & E & P) end.
    - cbn [firstn app]. rewrite Nat.sub_0_r. reflexivity.
    - intros i v Hi ->. destruct (nth_error (roles bs) i) as [r|] eqn:Er; [|apply nth_error_None in Er; lia].
      destruct (hand_name Er) as (s & _ & -> & Hs). cbn [bind].
      destruct (nth_error values i) as [x|] eqn:Ex; [|apply nth_error_None in Ex; lia].
      rewrite (proj2 (get_Ok_iff _ _ _) Ex). cbn [bind fst snd].
      assert (EF : nth_error (map F L) i = Some (rel r x)).
      { rewrite nth_error_map. unfold L. assert (Ec : nth_error (combine (roles bs) values) i = Some (r, x)).
        { clear -Er Ex. revert values i Er Ex. generalize (roles bs). induction l as [|a l IH]; intros values i H1 H2; [destruct i; discriminate|].
          destruct values as [|y values]; [destruct i; discriminate|]. destruct i as [|i]; cbn in *; [congruence|]. now apply IH. }
        now rewrite Ec. }
      assert (SF : firstn (S i) (map F L) = firstn i (map F L) ++ [rel r x]).
      { clear -EF. revert i EF. generalize (map F L). induction l as [|a l IH]; intros i H; [destruct i; discriminate|].
        destruct i as [|i]; cbn in *; [congruence|]. f_equal. now apply IH. }
      assert (SET : forall y, set (firstn i (map F L) ++ repeat (nofZ N 0) (List.length (roles bs) - i)) i y
          = Ok (firstn i (map F L) ++ y :: repeat (nofZ N 0) (List.length (roles bs) - S i))).
      { intros y. replace (List.length (roles bs) - i) with (S (List.length (roles bs) - S i)) by lia. cbn [repeat].
        set (a := firstn i (map F L)). assert (La : List.length a = i) by (unfold a; rewrite firstn_length, map_length; lia).
        rewrite set_lt by (rewrite app_length; cbn [List.length]; lia). f_equal. clearbody a. generalize (repeat (nofZ N 0) (List.length (roles bs) - S i)). clear -La. intros tl. subst i.
        induction a as [|h t IH]; cbn [app List.length upd]; [reflexivity|]. now f_equal. }
      rewrite SF, <- app_assoc. cbn [app]. unfold role_of in Hs.
      destruct (str_eqb s X0_string); [|destruct (str_eqb s Y0_string)]; subst r; rewrite SET; eexists; (split; [reflexivity|]); reflexivity.
    - rewrite E, P, Nat.sub_diag. cbn [repeat]. rewrite app_nil_r, firstn_all2; [reflexivity|]. rewrite map_length. lia.
  Qed.

  Lemma infos_ok (limits : list (mp_par T)) : List.length limits = List.length (roles bs) ->
    exists info, move_infos N b (offX, offY) limits = Ok info /\ List.length info = List.length limits /\
     forall i r p, nth_error (roles bs) i = Some r -> nth_error limits i = Some p ->
      nth_error info i = Some (mkPar (p_fixed p) (p_lim0 p) (p_lim1 p) (rel r (p_lo p)) (rel r (p_hi p))).
  Proof.
    intros HL. unfold move_infos. rewrite hand_n.
    match goal with |- exists info, for_ ?n ?f ?s0 = _ /\ _ => destruct (@for_inv _ (fun k info => List.length info = List.length limits /\
       (forall i r p, nth_error (roles bs) i = Some r -> nth_error limits i = Some p -> i < k ->
          nth_error info i = Some (mkPar (p_fixed p) (p_lim0 p) (p_lim1 p) (rel r (p_lo p)) (rel r (p_hi p)))) /\
       (forall i, k <= i -> nth_error info i = nth_error limits i)) f n s0) as (v' & E & P1 & P2 & P3) end.
    - split; [reflexivity|]. split; [intros; lia|]. reflexivity.
    - intros k info Hk (P1 & P2 & P3). destruct (nth_error (roles bs) k) as [r|] eqn:Er; [|apply nth_error_None in Er; lia].
      destruct (hand_name Er) as (s & _ & -> & Hs). cbn [bind fst snd].
      destruct (nth_error limits k) as [p|] eqn:Ep; [|apply nth_error_None in Ep; lia].
      assert (Eg : get info k = Ok p) by (apply get_Ok_iff; rewrite P3 by lia; exact Ep).
      assert (STEP : forall info', (info' = upd info k (mkPar (p_fixed p) (p_lim0 p) (p_lim1 p) (rel r (p_lo p)) (rel r (p_hi p)))) ->
         List.length info' = List.length limits /\
         (forall i r p, nth_error (roles bs) i = Some r -> nth_error limits i = Some p -> i < S k ->
          nth_error info' i = Some (mkPar (p_fixed p) (p_lim0 p) (p_lim1 p) (rel r (p_lo p)) (rel r (p_hi p)))) /\
         (forall i, S k <= i -> nth_error info' i = nth_error limits i)).
      { intros info' ->. split; [now rewrite upd_length|]. split.
        - intros i r' p' H1 H2 H3. rewrite nth_error_upd. destruct (Nat.eqb_spec k i) as [->|Hne]; cbn [andb].
          + rewrite Er in H1. rewrite Ep in H2. injection H1 as <-. injection H2 as <-.
            destruct (Nat.ltb_spec i (List.length info)); [reflexivity|lia].
          + apply P2; auto; lia.
        - intros i Hi. rewrite nth_error_upd. destruct (Nat.eqb_spec k i); [lia|]. apply P3. lia. }
      unfold role_of in Hs. destruct (str_eqb s X0_string); [|destruct (str_eqb s Y0_string)]; rewrite ?Eg; cbn [bind].
      + rewrite set_lt by lia. eexists. split; [reflexivity|]. apply STEP. subst r. reflexivity.
      + rewrite set_lt by lia. eexists. split; [reflexivity|]. apply STEP. subst r. reflexivity.
      + eexists. split; [reflexivity|]. apply STEP. subst r. cbn [relative]. destruct p as [a1 a2 a3 a4 a5]. cbn [p_fixed p_lim0 p_lim1 p_lo p_hi].
        clear -Eg. apply get_Ok_iff in Eg. revert k Eg. induction info as [|h t IH]; intros k H; [destruct k; discriminate|].
        destruct k as [|k]; cbn in *; [congruence|]. f_equal. now apply IH.
    - exists v'. split; [exact E|]. split; [exact P1|]. intros i r p H1 H2. apply P2; auto. apply nth_error_Some. congruence.
  Qed.

  Lemma free_ok (limits : list (mp_par T)) : List.length limits = List.length (roles bs) ->
    count_free (b_nParamsTot b) limits = Ok (Z.of_nat (List.length (filter (fun p => negb (p_fixed p)) limits))).
  Proof.
    intros HL. unfold count_free. rewrite hand_n, <- HL.
    match goal with |- for_ ?n ?f ?s0 = _ => destruct (@for_inv _ (fun k c => c = (Z.of_nat n - Z.of_nat (List.length (filter (fun p => p_fixed p) (firstn k limits))))%Z) f n s0) as (c & E & P) end.
    - cbn. lia.
    - intros k c Hk ->. destruct (nth_error limits k) as [p|] eqn:Ep; [|apply nth_error_None in Ep; lia].
      rewrite (proj2 (get_Ok_iff _ _ _) Ep). cbn [bind]. eexists. split; [reflexivity|].
      assert (SF : firstn (S k) limits = firstn k limits ++ [p]).
      { clear -Ep. revert k Ep. induction limits as [|a l IH]; intros k H; [destruct k; discriminate|].
        destruct k as [|k]; cbn in *; [congruence|]. f_equal. now apply IH. }
      rewrite SF, filter_app, app_length. cbn [filter]. destruct (p_fixed p); cbn [List.length]; lia.
    - rewrite E, P, firstn_all. f_equal. clear. induction limits as [|p l IH]; [reflexivity|].
      cbn [filter List.length]. destruct (p_fixed p); cbn [negb List.length]; lia.
  Qed.

  Section Begin.
  Variable s : setup T.
  Variable po : pout T.
  Variable obj : mobj T.
  Hypothesis HO : SetupModelObject N s = Ok obj.
  Hypothesis HL : List.length (o_limits po) = List.length (o_params po).

  Lemma final_is_prepare : FinalSetupForFitting N obj = prepare N s.
  Proof. unfold prepare. now rewrite HO. Qed.

  Lemma begin_imfit_ok st obj' : prepare N s = Ok (st, obj') ->
    (List.length (o_params po) <> List.length (roles bs) -> begin_imfit N b (offX, offY) po obj = Ok (inl (-1)%Z)) /\
    (List.length (o_params po) = List.length (roles bs) -> (st < 0)%Z -> begin_imfit N b (offX, offY) po obj = Ok (inl (-1)%Z)) /\
    (List.length (o_params po) = List.length (roles bs) -> (0 <= st)%Z ->
      exists h, begin_imfit N b (offX, offY) po obj = Ok (inr (h, obj')) /\ Handed N offX offY bs (o_params po) (o_limits po) h).
  Proof.
    intros EP. unfold begin_imfit. rewrite final_is_prepare, EP, hand_n. pose proof roles_pos as RP.
    split; [|split].
    - intros H. destruct (Nat.eqb_spec (List.length (roles bs)) (List.length (o_params po))); [congruence|reflexivity].
    - intros -> H. rewrite Nat.eqb_refl. cbn [negb bind]. destruct (Z.ltb_spec st 0); [reflexivity|lia].
    - intros E H. rewrite E, Nat.eqb_refl. cbn [negb bind]. destruct (Z.ltb_spec st 0); [lia|].
      destruct (Nat.leb_spec (List.length (roles bs)) 0); [lia|].
      rewrite <- hand_n, free_ok by congruence. cbn [bind].
      destruct (@infos_ok (o_limits po)) as (info & E1 & E2 & E3); [congruence|]. rewrite E1. cbn [bind].
      rewrite start_ok by congruence. cbn [bind]. eexists. split; [reflexivity|].
      constructor; cbn [h_start h_info h_free]; auto.
  Qed.

  Lemma begin_mcmc_ok st obj' nChains : prepare N s = Ok (st, obj') ->
    let run := begin_mcmc N b (offX, offY) po obj nChains in
    (List.length (o_params po) <> List.length (roles bs) -> run = Ok (inl (-1)%Z)) /\
    (List.length (o_params po) = List.length (roles bs) -> (st < 0)%Z -> run = Ok (inl (-1)%Z)) /\
    (List.length (o_params po) = List.length (roles bs) -> (0 <= st)%Z ->
      ~ Forall (fun p => p_fixed p = true \/ Bounded p) (o_limits po) -> run = Ok (inl (-2)%Z)) /\
    (List.length (o_params po) = List.length (roles bs) -> (0 <= st)%Z ->
      Forall (fun p => p_fixed p = true \/ Bounded p) (o_limits po) ->
      exists d, run = Ok (inr (d, obj')) /\
        Sampled N offX offY bs (o_params po) (o_limits po) (if (nChains <=? 0)%Z then None else Some nChains) d).
  Proof.
    intros EP run. unfold run, begin_mcmc. rewrite final_is_prepare, EP, hand_n. pose proof roles_pos as RP.
    split; [|].
    { intros H. destruct (Nat.eqb_spec (List.length (roles bs)) (List.length (o_params po))); [congruence|reflexivity]. }
    set (OKF := fun (i : nat) (ok : bool) => do p <- get (o_limits po) i;
        Ok (if negb (p_fixed p) && (negb (p_lim0 p) || negb (p_lim1 p)) then false else ok)).
    assert (OK : List.length (o_params po) = List.length (roles bs) ->
       exists ok, for_ (List.length (roles bs)) OKF true = Ok ok /\
         (ok = true <-> Forall (fun p => p_fixed p = true \/ Bounded p) (o_limits po))).
    { intros E. assert (EL : List.length (o_limits po) = List.length (roles bs)) by congruence.
      destruct (@for_inv _ (fun k ok => (ok = true <-> Forall (fun p => p_fixed p = true \/ Bounded p) (firstn k (o_limits po)))) OKF (List.length (roles bs)) true) as (ok & Eo & Po).
      - cbn [firstn]. split; [constructor|reflexivity].
      - intros k ok Hk Po. unfold OKF. destruct (nth_error (o_limits po) k) as [p|] eqn:Ep; [|apply nth_error_None in Ep; lia].
        rewrite (proj2 (get_Ok_iff _ _ _) Ep). cbn [bind]. eexists. split; [reflexivity|].
        assert (SF : firstn (S k) (o_limits po) = firstn k (o_limits po) ++ [p]).
        { clear -Ep. revert k Ep. induction (o_limits po) as [|a l IH]; intros k H; [destruct k; discriminate|].
          destruct k as [|k]; cbn in *; [congruence|]. f_equal. now apply IH. }
        rewrite SF, Forall_app. unfold Bounded.
        assert (C : negb (p_fixed p) && (negb (p_lim0 p) || negb (p_lim1 p)) = false <-> (p_fixed p = true \/ p_lim0 p = true /\ p_lim1 p = true))
          by (destruct (p_fixed p), (p_lim0 p), (p_lim1 p); cbn; intuition congruence).
        destruct (negb (p_fixed p) && (negb (p_lim0 p) || negb (p_lim1 p))).
        + split; [discriminate|]. intros [_ H]. apply Forall_cons_iff in H. destruct H as [H _]. apply C in H. discriminate.
        + rewrite Po. split.
          * intros H. split; [exact H|]. constructor; [|constructor]. now apply C.
          * now intros [H _].
      - exists ok. split; [exact Eo|]. rewrite firstn_all2 in Po by lia. exact Po. }
    split; [|split].
    - intros E H. rewrite E, Nat.eqb_refl. cbn [negb]. rewrite <- hand_n, free_ok by congruence. cbn [bind].
      destruct (Z.ltb_spec st 0); [reflexivity|lia].
    - intros E H HF. rewrite E, Nat.eqb_refl. cbn [negb]. rewrite <- hand_n, free_ok by congruence. cbn [bind].
      destruct (Z.ltb_spec st 0); [lia|]. rewrite hand_n. destruct (OK E) as (ok & Eo & Po). fold OKF. rewrite Eo. cbn [bind].
      destruct ok; [exfalso; apply HF; now apply Po|reflexivity].
    - intros E H HF. rewrite E, Nat.eqb_refl. cbn [negb]. rewrite <- hand_n, free_ok by congruence. cbn [bind].
      destruct (Z.ltb_spec st 0); [lia|]. rewrite hand_n. destruct (OK E) as (ok & Eo & Po). fold OKF. rewrite Eo. cbn [bind].
      destruct ok; [|exfalso; apply Po in HF; discriminate]. cbn [negb].
      destruct (Nat.leb_spec (List.length (roles bs)) 0); [lia|].
      destruct (@infos_ok (o_limits po)) as (info & E1 & E2 & E3); [congruence|]. rewrite E1. cbn [bind].
      rewrite start_ok by congruence. cbn [bind]. set (start := map _ (combine (roles bs) (o_params po))).
      assert (LS : List.length start = List.length (roles bs)) by (unfold start; rewrite map_length, combine_length; lia).
      assert (NS : forall i r v, nth_error (roles bs) i = Some r -> nth_error (o_params po) i = Some v -> nth_error start i = Some (rel r v)).
      { intros i r v K1 K2. unfold start. rewrite nth_error_map. assert (Ec : nth_error (combine (roles bs) (o_params po)) i = Some (r, v)).
        { clear -K1 K2. revert i K1 K2. generalize (o_params po) as values. generalize (roles bs) as l.
          induction l as [|a l IH]; intros values i H1 H2; [destruct i; discriminate|].
          destruct values as [|y values]; [destruct i; discriminate|]. destruct i as [|i]; cbn in *; [congruence|]. now apply IH. }
        now rewrite Ec. }
      match goal with |- context [for_ ?n ?f ?s0] => destruct (@for_inv _ (fun k '(lock, low, high, names) =>
          lock = firstn k (map (@p_fixed T) (o_limits po)) /\ names = firstn k (param_names bs) /\
          List.length low = k /\ List.length high = k /\
          (forall i r p v, i < k -> nth_error (roles bs) i = Some r -> nth_error (o_limits po) i = Some p -> nth_error (o_params po) i = Some v ->
             nth_error low i = Some (rel r (if p_fixed p then v else p_lo p)) /\
             nth_error high i = Some (rel r (if p_fixed p then v else p_hi p)))) f n s0) as (v' & Ev & Pv) end.
      + cbn. split; [reflexivity|]. split; [reflexivity|]. split; [reflexivity|]. split; [reflexivity|]. intros; lia.
      + intros k [[[lock low] high] names] Hk (P1 & P2 & P3 & P4 & P5).
        destruct (nth_error (roles bs) k) as [r|] eqn:Er; [|apply nth_error_None in Er; lia].
        destruct (nth_error (o_limits po) k) as [p|] eqn:Ep; [|apply nth_error_None in Ep; lia].
        destruct (nth_error (o_params po) k) as [v|] eqn:Ex; [|apply nth_error_None in Ex; lia].
        destruct (hand_name Er) as (nm & Hn1 & Hn2 & _).
        rewrite (proj2 (get_Ok_iff _ _ _) (E3 k r p Er Ep)), Hn2. cbn [bind p_fixed p_lo p_hi].
        assert (SN : forall A (l : list A) x, nth_error l k = Some x -> firstn (S k) l = firstn k l ++ [x]).
        { clear. intros A l. revert k. induction l as [|a l IH]; intros k x H; [destruct k; discriminate|].
          destruct k as [|k]; cbn in *; [congruence|]. f_equal. now apply IH. }
        assert (ST : forall lo hi, lo = rel r (if p_fixed p then v else p_lo p) -> hi = rel r (if p_fixed p then v else p_hi p) ->
           forall i r0 p0 v0, i < S k -> nth_error (roles bs) i = Some r0 -> nth_error (o_limits po) i = Some p0 -> nth_error (o_params po) i = Some v0 ->
             nth_error (low ++ [lo]) i = Some (rel r0 (if p_fixed p0 then v0 else p_lo p0)) /\
             nth_error (high ++ [hi]) i = Some (rel r0 (if p_fixed p0 then v0 else p_hi p0))).
        { intros lo hi -> -> i r0 p0 v0 Hi G1 G2 G3. destruct (Nat.eq_dec i k) as [->|Hne].
          - rewrite Er in G1. rewrite Ep in G2. rewrite Ex in G3. injection G1 as <-. injection G2 as <-. injection G3 as <-.
            rewrite !nth_error_app2 by lia. rewrite P3, P4, Nat.sub_diag. split; reflexivity.
          - rewrite !nth_error_app1 by lia. apply P5; auto. lia. }
        assert (SL : nth_error (map (@p_fixed T) (o_limits po)) k = Some (p_fixed p)) by (rewrite nth_error_map, Ep; reflexivity).
        destruct (p_fixed p) eqn:EF.
        * rewrite (proj2 (get_Ok_iff _ _ _) (NS k r v Er Ex)). cbn [bind]. eexists. split; [reflexivity|].
          split; [rewrite (SN _ _ _ SL), P1; reflexivity|]. split; [rewrite (SN _ _ _ Hn1), P2; reflexivity|].
          split; [rewrite app_length; cbn; lia|]. split; [rewrite app_length; cbn; lia|]. apply ST; reflexivity.
        * eexists. split; [reflexivity|].
          split; [rewrite (SN _ _ _ SL), P1; reflexivity|]. split; [rewrite (SN _ _ _ Hn1), P2; reflexivity|].
          split; [rewrite app_length; cbn; lia|]. split; [rewrite app_length; cbn; lia|]. apply ST; reflexivity.
      + rewrite Ev. cbn [bind]. destruct v' as [[[lock low] high] names]. destruct Pv as (P1 & P2 & P3 & P4 & P5).
        eexists. split; [reflexivity|]. constructor; cbn [d_hand d_lock d_low d_high d_names d_chains h_free].
        * constructor; cbn [h_start h_info h_free]; auto.
        * rewrite P1. apply firstn_all2. rewrite map_length. lia.
        * split; lia.
        * intros i r p v G1 G2 G3. apply P5; auto. apply nth_error_Some. congruence.
        * rewrite P2. apply firstn_all2. destruct (HB) as (_ & _ & H3). rewrite <- (names_roles H3), map_length. lia.
        * destruct (nChains <=? 0)%Z; reflexivity.
  Qed.
  End Begin.
End Hand.
