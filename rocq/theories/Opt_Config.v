(** Proofs for the options area: the configuration file's part, and mistakes. *)
From Coq Require Import Ascii String List ZArith Lia Bool.
From Verif Require Import Base CmdLine_Model StrUtil_Proof CmdLine_Spec CmdLine_Proof Opt_Model Opt_Spec Opt_Num Opt_Proof Opt_Final.
Local Open Scope list_scope.
Set Implicit Arguments.
Unset Strict Implicit.

Lemma named_one s n : named [s] n = str_eqb n (wd s).
Proof.
  unfold named. destruct (in_dec word_eq_dec n (map wd [s])) as [H|H].
  - destruct H as [<-|[]]. symmetry. now apply str_eqb_true.
  - symmetry. apply not_true_is_false. intros E. apply str_eqb_true in E. apply H. left. auto.
Qed.
Lemma named_two s t n : named [s; t] n = str_eqb n (wd s) || str_eqb n (wd t).
Proof.
  unfold named. destruct (in_dec word_eq_dec n (map wd [s; t])) as [H|H].
  - destruct H as [<-|[<-|[]]]; symmetry; apply orb_true_iff; [left|right]; now apply str_eqb_true.
  - symmetry. apply not_true_is_false. intros E. apply orb_true_iff in E. apply H.
    destruct E as [E|E]; apply str_eqb_true in E; subst; cbn; auto.
Qed.
Lemma last_acc names cfg : forall r, fold_left (fun r (nv : word * word) => if named names (fst nv) then Some (snd nv) else r) cfg r =
  match last_value cfg names with Some v => Some v | None => r end.
Proof.
  unfold last_value. induction cfg as [|nv cfg IH]; intros r; auto. cbn [fold_left].
  rewrite IH. rewrite (IH (if named names (fst nv) then Some (snd nv) else None)).
  destruct (fold_left _ cfg None); auto. destruct (named names (fst nv)); auto.
Qed.
Lemma last_cons names n v cfg : last_value ((n, v) :: cfg) names =
  match last_value cfg names with Some w => Some w | None => if named names n then Some v else None end.
Proof. unfold last_value at 1. cbn [fold_left fst snd]. now rewrite last_acc. Qed.
Lemma last_in names cfg v : last_value cfg names = Some v -> exists n, In (n, v) cfg /\ named names n = true.
Proof.
  induction cfg as [|[n w] cfg IH]; [discriminate|]. rewrite last_cons. destruct (last_value cfg names) as [x|] eqn:E.
  - intros [= ->]. destruct (IH eq_refl) as (m & I & N). exists m. split; auto. now right.
  - destruct (named names n) eqn:N; [|discriminate]. intros [= ->]. exists n. split; auto. now left.
Qed.

Section Config.
  Variable T : Type.
  Variable strtod : word -> T.
  Variable dbl : string -> T.
  Variable cores : Z.

  Definition held (b : bool) (cfg : list (word * word)) (names : list string) (conv : word -> val T) (old : val T) : val T :=
    if b then old else match last_value cfg names with Some v => conv v | None => old end.

  Lemma held_nil b names conv old : held b [] names conv old = old.
  Proof. unfold held. destruct b; reflexivity. Qed.
  Lemma held_cons b n v cfg names conv old :
    held b ((n, v) :: cfg) names conv old = held b cfg names conv (if negb b && named names n then conv v else old).
  Proof.
    unfold held. rewrite last_cons. destruct b; auto. destruct (last_value cfg names); auto.
    cbn [negb andb]. destruct (named names n); auto.
  Qed.

  Lemma config_fit b1 b2 b3 b4 b5 cfg : forall o,
    o K_gainSet = VB b1 -> o K_readNoiseSet = VB b2 -> o K_expTimeSet = VB b3 -> o K_originalSkySet = VB b4 -> o K_nCombinedSet = VB b5 ->
    Forall (fun nv => no_nul (snd nv)) cfg ->
    (b5 = false -> forall n v, In (n, v) cfg -> named ["NCOMBINED"%string] n = true -> Good Count v) ->
    exists o', HandleConfigFileOptions strtod cfg o = Ok o' /\ forall k, o' k =
      match k with
      | K_gain => held b1 cfg ["GAIN"%string] (fun v => VR (strtod v)) (o k)
      | K_readNoise => held b2 cfg ["READNOISE"%string] (fun v => VR (strtod v)) (o k)
      | K_expTime => held b3 cfg ["EXPTIME"%string] (fun v => VR (strtod v)) (o k)
      | K_originalSky => held b4 cfg ["ORIGINAL_SKY"%string] (fun v => VR (strtod v)) (o k)
      | K_nCombined => held b5 cfg ["NCOMBINED"%string] (fun v => VZ (integer v)) (o k)
      | _ => o k
      end.
  Proof.
    induction cfg as [|[n v] cfg IH]; intros o E1 E2 E3 E4 E5 HN HG.
    - exists o. split; [reflexivity|]. intros k. destruct k; rewrite ?held_nil; reflexivity.
    - apply Forall_cons_iff in HN. destruct HN as [Hv HN]. cbn [snd] in Hv.
      unfold HandleConfigFileOptions in *. cbn [fold_left].
      assert (H5 : b5 = false -> forall n v, In (n, v) cfg -> named ["NCOMBINED"%string] n = true -> Good Count v).
      { intros Hb m w I N. apply (HG Hb m w); auto. now right. }
      assert (STEP : exists o1, (do o <- Ok o; let (n, v) := (n, v) in
        if str_eqb n (lit "GAIN") then config_entry strtod o K_gainSet K_gain Strtod v
        else if str_eqb n (lit "READNOISE") then config_entry strtod o K_readNoiseSet K_readNoise Strtod v
        else if str_eqb n (lit "EXPTIME") then config_entry strtod o K_expTimeSet K_expTime Strtod v
        else if str_eqb n (lit "ORIGINAL_SKY") then config_entry strtod o K_originalSkySet K_originalSky Strtod v
        else if str_eqb n (lit "NCOMBINED") then config_entry strtod o K_nCombinedSet K_nCombined Atoi v
        else Ok o) = Ok o1 /\ forall k, o1 k =
          match k with
          | K_gain => if negb b1 && named ["GAIN"%string] n then VR (strtod v) else o k
          | K_readNoise => if negb b2 && named ["READNOISE"%string] n then VR (strtod v) else o k
          | K_expTime => if negb b3 && named ["EXPTIME"%string] n then VR (strtod v) else o k
          | K_originalSky => if negb b4 && named ["ORIGINAL_SKY"%string] n then VR (strtod v) else o k
          | K_nCombined => if negb b5 && named ["NCOMBINED"%string] n then VZ (integer v) else o k
          | _ => o k
          end).
      { cbn [bind]. unfold config_entry. rewrite E1, E2, E3, E4, E5. cbn [as_bool bind].
        pose proof (HG) as HG'. rewrite !named_one.
        change (lit "GAIN") with (wd "GAIN"). change (lit "READNOISE") with (wd "READNOISE").
        change (lit "EXPTIME") with (wd "EXPTIME"). change (lit "ORIGINAL_SKY") with (wd "ORIGINAL_SKY").
        change (lit "NCOMBINED") with (wd "NCOMBINED").
        assert (CV : convert strtod Strtod v = Ok (VR (strtod v))).
        { unfold convert. now rewrite (cstr_no_nul Hv). }
        destruct (str_eqb n (wd "GAIN")) eqn:N1.
        { apply str_eqb_true in N1. subst n. rewrite CV. destruct b1; cbn [bind]; eexists; (split; [reflexivity|]);
            intros k; destruct k; cbn; rewrite ?andb_false_r; reflexivity. }
        destruct (str_eqb n (wd "READNOISE")) eqn:N2.
        { apply str_eqb_true in N2. subst n. rewrite CV. destruct b2; cbn [bind]; eexists; (split; [reflexivity|]);
            intros k; destruct k; cbn; rewrite ?andb_false_r; reflexivity. }
        destruct (str_eqb n (wd "EXPTIME")) eqn:N3.
        { apply str_eqb_true in N3. subst n. rewrite CV. destruct b3; cbn [bind]; eexists; (split; [reflexivity|]);
            intros k; destruct k; cbn; rewrite ?andb_false_r; reflexivity. }
        destruct (str_eqb n (wd "ORIGINAL_SKY")) eqn:N4.
        { apply str_eqb_true in N4. subst n. rewrite CV. destruct b4; cbn [bind]; eexists; (split; [reflexivity|]);
            intros k; destruct k; cbn; rewrite ?andb_false_r; reflexivity. }
        destruct (str_eqb n (wd "NCOMBINED")) eqn:N5.
        { apply str_eqb_true in N5. subst n. destruct b5.
          - eexists. split; [reflexivity|]. intros k; destruct k; cbn; rewrite ?andb_false_r; reflexivity.
          - assert (G : Good Count v). { apply (HG eq_refl (wd "NCOMBINED") v); [now left|]. rewrite named_one. now apply str_eqb_true. }
            unfold convert. rewrite (atoi_positive G). cbn [bind]. eexists. split; [reflexivity|].
            intros k; destruct k; cbn; rewrite ?andb_false_r; reflexivity. }
        exists o. split; [reflexivity|]. intros k. rewrite !andb_false_r. destruct k; reflexivity. }
      destruct STEP as (o1 & Es & D1).
      match goal with |- context [fold_left ?f cfg ?x] => assert (Ex : x = Ok o1) by exact Es; rewrite Ex; clear Ex end.
      destruct (IH o1) as (o' & E' & D'); auto; try (rewrite D1; assumption).
      exists o'. split; [exact E'|]. intros k. rewrite D'. destruct k; rewrite ?held_cons, ?D1; reflexivity.
  Qed.

  (** imfit and imfit-mcmc: the whole *)
  Lemma given_opt_bool n its : match valuesW its n with [] => false | _ :: _ => true end = false -> valuesW its n = [].
  Proof. destruct (valuesW its n); auto; discriminate. Qed.

  Definition fit_program (p : program) : Prop := p = Imfit \/ p = Mcmc.
  Theorem config_fit_whole p its cfg (o : opts T) : fit_program p ->
    (forall k, o k = meaning_of T strtod dbl cores its p k) ->
    Forall (fun nv => no_nul (snd nv)) cfg ->
    (forall v, Used its cfg "ncombined" ["NCOMBINED"%string] v -> Good Count v) ->
    exists o', HandleConfigFileOptions strtod cfg o = Ok o' /\
      forall k, o' k = fit_configured T strtod dbl its cfg (meaning_of T strtod dbl cores its p) k.
  Proof.
    intros HP HO HN HG.
    destruct (@config_fit (has its "gain") (has its "readnoise") (has its "exptime") (has its "sky") (has its "ncombined") cfg o) as (o' & E & D); auto.
    - rewrite HO. destruct HP as [-> | ->]; reflexivity.
    - rewrite HO. destruct HP as [-> | ->]; reflexivity.
    - rewrite HO. destruct HP as [-> | ->]; reflexivity.
    - rewrite HO. destruct HP as [-> | ->]; reflexivity.
    - rewrite HO. destruct HP as [-> | ->]; reflexivity.
    - intros Hb n v I N. apply HG. split; eauto. unfold has in Hb. now destruct (values its ["ncombined"%string]).
    - exists o'. split; [exact E|]. intros k. rewrite D, HO. unfold fit_configured, config_real, config_count, held, has.
      assert (M : forall k, (k = K_gain \/ k = K_readNoise \/ k = K_expTime \/ k = K_originalSky \/ k = K_nCombined) ->
        meaning_of T strtod dbl cores its p k = match k with
          | K_gain => real T strtod dbl its "gain" "1.0" | K_readNoise => real T strtod dbl its "readnoise" "0.0"
          | K_expTime => real T strtod dbl its "exptime" "1.0" | K_originalSky => real T strtod dbl its "sky" "0.0"
          | _ => count T its "ncombined" 1 end).
      { intros k0 H. destruct HP as [-> | ->]; destruct H as [->|[->|[->|[->| ->]]]]; reflexivity. }
      destruct k; try reflexivity; rewrite M by tauto; unfold real, count;
        match goal with |- context [values its ?n] => destruct (values its n) end; try reflexivity;
        match goal with |- context [last_value cfg ?n] => destruct (last_value cfg n) end; reflexivity.
  Qed.

  (** ** makeimage *)
  Definition size_step (o : opts T) (nv : word * word) : res (outcome T) :=
    let (n, v) := nv in
    if str_eqb n (lit "NCOLS") || str_eqb n (lit "NCOLUMNS") then size_entry strtod o K_nColumnsSet K_nColumns v
    else if str_eqb n (lit "NROWS") then size_entry strtod o K_nRowsSet K_nRows v
    else Ok (Run o).
  Definition size_loop cfg (x : res (outcome T)) : res (outcome T) :=
    fold_left (fun r nv => do x <- r; match x with Exit z => Ok (Exit z) | Run o => size_step o nv end) cfg x.
  Lemma size_loop_eq cfg o : HandleConfigFileOptions_makeimage strtod cfg o = size_loop cfg (Ok (Run o)).
  Proof. reflexivity. Qed.
  Lemma size_loop_exit cfg z : size_loop cfg (Ok (Exit z)) = Ok (Exit z).
  Proof. unfold size_loop. induction cfg; cbn [fold_left bind]; auto. Qed.
  Lemma size_loop_run nv cfg o : size_loop (nv :: cfg) (Ok (Run o)) = size_loop cfg (size_step o nv).
  Proof. reflexivity. Qed.
  Notation cols := ["NCOLS"%string; "NCOLUMNS"%string].
  Notation rows := ["NROWS"%string].

  Lemma size_step_good b1 b2 o n v : o K_nColumnsSet = VB b1 -> o K_nRowsSet = VB b2 ->
    (b1 = false -> named cols n = true -> Good Count v) -> (b2 = false -> named rows n = true -> Good Count v) ->
    exists o1, size_step o (n, v) = Ok (Run o1) /\ forall k, o1 k =
      match k with
      | K_nColumns => if negb b1 && named cols n then VZ (integer v) else o k
      | K_nRows => if negb b2 && named rows n then VZ (integer v) else o k
      | _ => o k
      end.
  Proof.
    intros E1 E2 G1 G2. unfold size_step, size_entry. rewrite E1, E2. cbn [as_bool bind].
    rewrite named_two, named_one in *. change (lit "NCOLS") with (wd "NCOLS"). change (lit "NCOLUMNS") with (wd "NCOLUMNS").
    change (lit "NROWS") with (wd "NROWS").
    destruct (str_eqb n (wd "NCOLS") || str_eqb n (wd "NCOLUMNS")) eqn:N1.
    - assert (N2 : str_eqb n (wd "NROWS") = false).
      { apply orb_true_iff in N1. destruct N1 as [N1|N1]; apply str_eqb_true in N1; subst n; reflexivity. }
      rewrite N2. destruct b1.
      + exists o. split; [reflexivity|]. intros k. rewrite !andb_false_r. destruct k; reflexivity.
      + specialize (G1 eq_refl eq_refl). pose proof (nan_posint_good G1) as X. cbn [Good] in G1. rewrite X. cbn [bind].
        unfold convert. rewrite (atoi_positive G1). cbn [bind]. eexists. split; [reflexivity|].
        intros k. rewrite andb_false_r. destruct k; reflexivity.
    - destruct (str_eqb n (wd "NROWS")) eqn:N2.
      + destruct b2.
        * exists o. split; [reflexivity|]. intros k. rewrite !andb_false_r. destruct k; reflexivity.
        * specialize (G2 eq_refl eq_refl). pose proof (nan_posint_good G2) as X. cbn [Good] in G2. rewrite X. cbn [bind].
          unfold convert. rewrite (atoi_positive G2). cbn [bind]. eexists. split; [reflexivity|].
          intros k. rewrite andb_false_r. destruct k; reflexivity.
      + exists o. split; [reflexivity|]. intros k. rewrite !andb_false_r. destruct k; reflexivity.
  Qed.
  Lemma size_step_bad b1 b2 o n v : o K_nColumnsSet = VB b1 -> o K_nRowsSet = VB b2 ->
    (b1 = false /\ named cols n = true \/ b2 = false /\ named rows n = true) -> Bad Count v ->
    size_step o (n, v) = Ok (Exit 1).
  Proof.
    intros E1 E2 H B. unfold size_step, size_entry. rewrite E1, E2. cbn [as_bool bind].
    rewrite named_two, named_one in *. change (lit "NCOLS") with (wd "NCOLS"). change (lit "NCOLUMNS") with (wd "NCOLUMNS").
    change (lit "NROWS") with (wd "NROWS"). pose proof (nan_posint_bad B) as X. rewrite X. cbn [bind].
    destruct H as [[-> H]|[-> H]].
    - rewrite H. reflexivity.
    - rewrite H. apply str_eqb_true in H. subst n. reflexivity.
  Qed.

  Lemma size_good b1 b2 cfg : forall o, o K_nColumnsSet = VB b1 -> o K_nRowsSet = VB b2 ->
    (forall n v, In (n, v) cfg -> b1 = false /\ named cols n = true \/ b2 = false /\ named rows n = true -> Good Count v) ->
    exists o', size_loop cfg (Ok (Run o)) = Ok (Run o') /\ forall k, o' k =
      match k with
      | K_nColumns => held b1 cfg cols (fun v => VZ (integer v)) (o k)
      | K_nRows => held b2 cfg rows (fun v => VZ (integer v)) (o k)
      | _ => o k
      end.
  Proof.
    induction cfg as [|[n v] cfg IH]; intros o E1 E2 HG.
    - exists o. split; [reflexivity|]. intros k. destruct k; rewrite ?held_nil; reflexivity.
    - rewrite size_loop_run.
      destruct (@size_step_good b1 b2 o n v E1 E2) as (o1 & Es & D1).
      { intros Hb N. apply (HG n v); [now left|]. auto. }
      { intros Hb N. apply (HG n v); [now left|]. auto. }
      rewrite Es. destruct (IH o1) as (o' & E' & D'); try (rewrite D1; assumption).
      { intros m w I. apply HG. now right. }
      exists o'. split; [exact E'|]. intros k. rewrite D'. destruct k; rewrite ?held_cons, ?D1; reflexivity.
  Qed.
  Lemma size_bad b1 b2 cfg : forall o, o K_nColumnsSet = VB b1 -> o K_nRowsSet = VB b2 ->
    (forall n v, In (n, v) cfg -> b1 = false /\ named cols n = true \/ b2 = false /\ named rows n = true -> Good Count v \/ Bad Count v) ->
    (exists n v, In (n, v) cfg /\ (b1 = false /\ named cols n = true \/ b2 = false /\ named rows n = true) /\ Bad Count v) ->
    size_loop cfg (Ok (Run o)) = Ok (Exit 1).
  Proof.
    induction cfg as [|[n v] cfg IH]; intros o E1 E2 HG HB.
    - destruct HB as (n & v & [] & _).
    - rewrite size_loop_run.
      assert (D : (b1 = false /\ named cols n = true \/ b2 = false /\ named rows n = true) /\ Bad Count v \/
                  (b1 = false /\ named cols n = true \/ b2 = false /\ named rows n = true -> Good Count v)).
      { destruct (named cols n) eqn:C1, (named rows n) eqn:C2, b1, b2;
          try (right; intros [[? ?]|[? ?]]; discriminate);
          (destruct (HG n v (or_introl eq_refl)) as [G|B]; [rewrite ?C1, ?C2; tauto| |]; [right; intros _; exact G|left; split; [tauto|exact B]]). }
      destruct D as [[H B]|G].
      + rewrite (@size_step_bad b1 b2 o n v E1 E2 H B). apply size_loop_exit.
      + destruct (@size_step_good b1 b2 o n v E1 E2) as (o1 & Es & D1); auto.
        rewrite Es. destruct HB as (m & w & [I|I] & H & B).
        * inversion I; subst. exfalso. specialize (G H). clear -G B. destruct G as (Hne & HD & H0 & _).
          destruct w as [|c w]; [congruence|]. destruct (B c w eq_refl) as [_ N]. apply N.
          apply Forall_cons_iff in HD. destruct HD as [Dc _]. unfold Dig in Dc. specialize (H0 c w eq_refl). lia.
        * apply IH; try (rewrite D1; assumption); eauto. intros m' w' I'. apply HG. now right.
  Qed.

  Theorem config_size_whole its cfg (o : opts T) :
    (forall k, o k = meaning_of T strtod dbl cores its Makeimage k) ->
    ((forall v, SizeLine its cfg v -> Good Count v) ->
     exists o', HandleConfigFileOptions_makeimage strtod cfg o = Ok (Run o') /\
      forall k, o' k = size_configured T its cfg (meaning_of T strtod dbl cores its Makeimage) k) /\
    ((forall v, SizeLine its cfg v -> Good Count v \/ Bad Count v) -> (exists v, SizeLine its cfg v /\ Bad Count v) ->
     HandleConfigFileOptions_makeimage strtod cfg o = Ok (Exit 1)).
  Proof.
    intros HO. rewrite size_loop_eq.
    assert (E1 : o K_nColumnsSet = VB (has its "ncols")) by (rewrite HO; reflexivity).
    assert (E2 : o K_nRowsSet = VB (has its "nrows")) by (rewrite HO; reflexivity).
    assert (U : forall n v, In (n, v) cfg -> has its "ncols" = false /\ named cols n = true \/ has its "nrows" = false /\ named rows n = true ->
      SizeLine its cfg v).
    { intros n v I [[H N]|[H N]]; [left|right]; (split; [unfold has in H; match type of H with (match ?x with _ => _ end = _) => destruct x end; [reflexivity|discriminate]|eauto]). }
    split.
    - intros HG. destruct (@size_good (has its "ncols") (has its "nrows") cfg o E1 E2) as (o' & E & D).
      { intros n v I H. apply HG. eapply U; eauto. }
      exists o'. split; [exact E|]. intros k. rewrite D, HO. unfold size_configured, config_count, held, has.
      destruct k; try reflexivity.
      + cbn [meaning_of]. unfold makeimage_meaning. cbn [first_of oversampling_member making_member]. unfold count.
        destruct (values its ["ncols"%string]); reflexivity.
      + cbn [meaning_of]. unfold makeimage_meaning. cbn [first_of oversampling_member making_member]. unfold count.
        destruct (values its ["nrows"%string]); reflexivity.
    - intros HG (v & HU & HB). apply (size_bad E1 E2).
      + intros n w I H. apply HG. eapply U; eauto.
      + destruct HU as [[V (n & I & N)]|[V (n & I & N)]]; exists n, v; split; auto; split; auto; [left|right];
          (split; [unfold has; rewrite V; reflexivity|exact N]).
  Qed.

  Variable GetImageSize : word -> option (Z * Z).
  Theorem image_size_ok its cfg (o : opts T) :
    (forall v, SizeLine its cfg v -> Good Count v) -> Accepted makeimage_sheet its -> GetImageSize [] = None ->
    (forall k, o k = size_configured T its cfg (meaning_of T strtod dbl cores its Makeimage) k) ->
    image_size GetImageSize o = Ok (size_wanted GetImageSize its cfg).
  Proof.
    intros HG (_ & _ & HA) HE HO. unfold image_size.
    assert (P : forall v, Good Count v -> (0 <? integer v)%Z = true).
    { intros v G. pose proof (positive_nonzero G) as N. apply Z.eqb_neq in N. apply Z.ltb_lt.
      destruct G as (_ & HD & _). rewrite (digits_integer HD) in *. pose proof (decimal_nonneg HD). lia. }
    assert (A1 : forall v l, values its ["ncols"%string] = v :: l -> Good Count v).
    { intros v l E. assert (G : Forall (Good Count) (counted Count (values its ["ncols"%string]))) by (apply HA; cbn; tauto).
      rewrite E in G. cbn in G. apply Forall_cons_iff in G. tauto. }
    assert (A2 : forall v l, values its ["nrows"%string] = v :: l -> Good Count v).
    { intros v l E. assert (G : Forall (Good Count) (counted Count (values its ["nrows"%string]))) by (apply HA; cbn; tauto).
      rewrite E in G. cbn in G. apply Forall_cons_iff in G. tauto. }
    assert (B1 : forall v, values its ["ncols"%string] = [] -> last_value cfg cols = Some v -> Good Count v).
    { intros v E L. apply HG. left. split; auto. destruct (last_in L) as (n & I & N). eauto. }
    assert (B2 : forall v, values its ["nrows"%string] = [] -> last_value cfg rows = Some v -> Good Count v).
    { intros v E L. apply HG. right. split; auto. destruct (last_in L) as (n & I & N). eauto. }
    rewrite !HO. cbn [size_configured meaning_of]. unfold makeimage_meaning.
    cbn [first_of oversampling_member making_member]. unfold text.
    fold (saving its). unfold config_count, size_wanted, size_of. cbn [as_bool bind].
    assert (FX : (given its ["print-fluxes"%string] || has its "save-fluxes") && negb (saving its) && negb (given its ["printimage"%string]) = fluxes its) by reflexivity.
    rewrite FX.
    unfold has. destruct (values its ["refimage"%string]) as [|r rl] eqn:ER.
    - assert (HF : saving its = true -> fluxes its = false).
      { intros S. unfold fluxes. rewrite S. now rewrite andb_false_r. }
      unfold has.
      destruct (values its ["ncols"%string]) as [|c cl] eqn:EC; destruct (values its ["nrows"%string]) as [|w wl] eqn:EW;
        [destruct (last_value cfg cols) as [c|] eqn:LC; destruct (last_value cfg rows) as [w|] eqn:LW
        |destruct (last_value cfg cols) as [c|] eqn:LC
        |destruct (last_value cfg rows) as [w|] eqn:LW|]; cbn [as_int bind];
        rewrite ?(P _ (A1 _ _ eq_refl)), ?(P _ (A2 _ _ eq_refl)), ?(P _ (B1 _ eq_refl eq_refl)), ?(P _ (B2 _ eq_refl eq_refl));
        cbn [andb negb]; change (0 <? 0)%Z with false; rewrite ?andb_false_r; cbn [andb negb];
        try reflexivity;
        (destruct (saving its); cbn [andb]; [rewrite (HF eq_refl); reflexivity|]);
        (destruct (fluxes its); cbn [negb andb]; try reflexivity; change (wd "") with (@nil ascii); rewrite HE; reflexivity).
    - unfold has.
      destruct (values its ["ncols"%string]) as [|c cl] eqn:EC; destruct (values its ["nrows"%string]) as [|w wl] eqn:EW;
        [destruct (last_value cfg cols) as [c|] eqn:LC; destruct (last_value cfg rows) as [w|] eqn:LW
        |destruct (last_value cfg cols) as [c|] eqn:LC
        |destruct (last_value cfg rows) as [w|] eqn:LW|]; cbn [as_int bind];
        rewrite ?(P _ (A1 _ _ eq_refl)), ?(P _ (A2 _ _ eq_refl)), ?(P _ (B1 _ eq_refl eq_refl)), ?(P _ (B2 _ eq_refl eq_refl));
        cbn [andb negb]; change (0 <? 0)%Z with false; rewrite ?andb_false_r; cbn [andb negb];
        try reflexivity; destruct (fluxes its); cbn [negb andb]; try reflexivity; destruct (GetImageSize r) as [[a b]|]; reflexivity.
  Qed.

  (** ** mistakes *)
  Lemma regs_of_ok p : exists regs sts (o0 : opts T), options_of T strtod dbl cores p = ProcessInput strtod regs sts o0 /\
    NoDup (flat_map rg_names regs) /\ forall b n, IsReg b (sheet_regs (sheet_of p)) n <-> IsReg b regs n.
  Proof.
    assert (X : forall regs, words_eqb (nodup word_eq_dec (flat_map rg_names regs)) (flat_map rg_names regs) = true -> NoDup (flat_map rg_names regs)).
    { intros regs H. apply words_eqb_true in H. rewrite <- H. apply NoDup_nodup. }
    destruct p; (do 3 eexists; split; [reflexivity|split; [apply X; vm_compute; reflexivity|apply same_names_ok; vm_compute; reflexivity]]).
  Qed.
  Theorem mistakes p its ws prog w more : Says (sheet_of p) its ws ->
    (exists d n, w = d ++ n /\ dashes d /\
       (n = [] \/
        Name n /\ ~ IsReg true (sheet_regs (sheet_of p)) n /\ ~ IsReg false (sheet_regs (sheet_of p)) n \/
        Name n /\ IsReg false (sheet_regs (sheet_of p)) n /\ more = [])) ->
    options_of T strtod dbl cores p (prog :: ws ++ w :: more) = Ok (Exit 1).
  Proof.
    intros [HL HU] (d & n & -> & Hd & H). destruct (regs_of_ok p) as (regs & sts & o0 & E & ND & HR).
    rewrite E. unfold ProcessInput. pose proof (Line_mono HR HL) as HL'.
    destruct H as [->|[(Hn & H1 & H2)|(Hn & H1 & ->)]].
    - rewrite app_nil_r. destruct (@commandline_dashes regs ND false its ws prog d more HL' (or_intror HU) Hd) as (p' & E').
      change (register regs newParser) with (add_all regs newParser) in E'. rewrite E'. reflexivity.
    - destruct (@commandline_unknown regs ND its ws prog n d more HL' HU Hd Hn) as (p' & E').
      + intros I. apply HR in I. auto.
      + intros I. apply HR in I. auto.
      + change (register regs newParser) with (add_all regs newParser) in E'. rewrite E'. reflexivity.
    - destruct (@commandline_missing regs ND false its ws prog n d HL' (or_intror HU) Hd Hn) as (p' & E').
      + now apply HR.
      + change (register regs newParser) with (add_all regs newParser) in E'. rewrite E'. reflexivity.
  Qed.
  Theorem all_lines p its ws prog : Says (sheet_of p) its ws ->
    (Accepted (sheet_of p) its -> exists o, options_of T strtod dbl cores p (prog :: ws) = Ok (Run o) /\
       forall k, o k = meaning_of T strtod dbl cores its p k) /\
    (Refused (sheet_of p) its -> options_of T strtod dbl cores p (prog :: ws) = Ok (Exit 1)).
  Proof.
    destruct p; intros HS.
    - exact (imfit_line strtod dbl cores prog HS).
    - exact (mcmc_line strtod dbl cores prog HS).
    - exact (makeimage_line strtod dbl cores prog HS).
    - exact (multimfit_line strtod dbl cores prog HS).
    - exact (makemultimages_line strtod dbl cores prog HS).
  Qed.
End Config.
