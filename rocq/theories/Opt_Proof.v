(** Proofs for the options area: running the steps of ProcessInput. *)
From Coq Require Import Ascii String List ZArith Lia Bool.
From Verif Require Import Base CmdLine_Model StrUtil_Proof CmdLine_Spec CmdLine_Proof Opt_Model Opt_Spec Opt_Num.
Local Open Scope list_scope.
Set Implicit Arguments.
Unset Strict Implicit.

(** ** the specification's vocabulary on lists of words *)
Definition namedW (ns : list word) (n : word) : bool := if in_dec word_eq_dec n ns then true else false.
Definition givenW (its : list item) (ns : list word) : bool :=
  existsb (fun it => match it with UFlag n => namedW ns n | _ => false end) its.
Definition valuesW (its : list item) (ns : list word) : list word :=
  flat_map (fun it => match it with UOpt n v | UOptEq n v => if namedW ns n then [v] else [] | _ => [] end) its.
Lemma given_W its ns : given its ns = givenW its (map wd ns). Proof. reflexivity. Qed.
Lemma values_W its ns : values its ns = valuesW its (map wd ns). Proof. reflexivity. Qed.

Lemma namedW_true ns n : namedW ns n = true <-> In n ns.
Proof. unfold namedW. destruct (in_dec word_eq_dec n ns); split; intros; auto; discriminate. Qed.

Lemma givenW_spec r its : givenW its (rg_names r) = true <-> flag_given r its.
Proof.
  unfold givenW, flag_given. rewrite existsb_exists. split.
  - intros (it & Hi & E). destruct it; try discriminate. apply namedW_true in E. exists name. auto.
  - intros (n & Hn & Hi). exists (UFlag n). split; auto. now apply namedW_true.
Qed.
Lemma valuesW_spec r its vs : ValuesFor r its vs -> vs = valuesW its (rg_names r).
Proof.
  induction 1 as [|it v its vs (n & Hn & Hit) HV IH|it its vs Hno HV IH].
  - reflexivity.
  - unfold valuesW. cbn [flat_map]. fold (valuesW its (rg_names r)). rewrite <- IH.
    destruct Hit as [-> | ->]; rewrite (proj2 (namedW_true _ _) Hn); reflexivity.
  - unfold valuesW. cbn [flat_map]. fold (valuesW its (rg_names r)). rewrite <- IH.
    destruct it as [n|n v|n v|w|w]; try reflexivity.
    + destruct (namedW (rg_names r) n) eqn:E; [|reflexivity]. apply namedW_true in E.
      exfalso. apply (Hno v). exists n. auto.
    + destruct (namedW (rg_names r) n) eqn:E; [|reflexivity]. apply namedW_true in E.
      exfalso. apply (Hno v). exists n. auto.
Qed.

(** names that the program does not know are never given *)
Lemma line_flag regs its ws n : Line regs its ws -> In (UFlag n) its -> IsReg true regs n.
Proof.
  induction 1 as [|it w its rest HW HL IH]; intros Hi; [destruct Hi|].
  destruct Hi as [->|Hi]; auto. inversion HW; subst; auto.
Qed.
Lemma line_opt regs its ws n v : Line regs its ws -> In (UOpt n v) its \/ In (UOptEq n v) its -> IsReg false regs n.
Proof.
  induction 1 as [|it w its rest HW HL IH]; intros Hi; [destruct Hi as [[]|[]]|].
  destruct Hi as [[->|Hi]|[->|Hi]]; auto; inversion HW; subst; auto.
Qed.
Lemma absent_flag regs its ws ns : Line regs its ws -> (forall n, In n ns -> ~ IsReg true regs n) -> givenW its ns = false.
Proof.
  intros HL H. destruct (givenW its ns) eqn:E; auto. unfold givenW in E. apply existsb_exists in E.
  destruct E as (it & Hi & E). destruct it; try discriminate. apply namedW_true in E.
  exfalso. exact (H _ E (line_flag HL Hi)).
Qed.
Lemma absent_opt regs its ws ns : Line regs its ws -> (forall n, In n ns -> ~ IsReg false regs n) -> valuesW its ns = [].
Proof.
  intros HL H. destruct (valuesW its ns) as [|v l] eqn:E; auto. exfalso.
  assert (I : In v (valuesW its ns)) by (rewrite E; now left). unfold valuesW in I. apply in_flat_map in I.
  destruct I as (it & Hi & I). destruct it as [n|n w|n w|w|w]; try (now destruct I).
  - destruct (namedW ns n) eqn:En; [|now destruct I]. apply namedW_true in En.
    exact (H _ En (line_opt HL (or_introl Hi))).
  - destruct (namedW ns n) eqn:En; [|now destruct I]. apply namedW_true in En.
    exact (H _ En (line_opt HL (or_intror Hi))).
Qed.

Lemma Line_mono A B its ws : (forall b n, IsReg b A n <-> IsReg b B n) -> Line A its ws -> Line B its ws.
Proof.
  intros H. induction 1 as [|it w its rest HW HL IH]; [constructor|]. constructor; auto.
  inversion HW; subst.
  - constructor; auto. now apply H.
  - constructor; auto. now apply H.
  - constructor; auto. now apply H.
  - now constructor.
  - constructor; auto; intros I; apply H in I; auto.
Qed.

(** names of the registrations with the given kind *)
Definition reg_names (b : bool) (regs : list reg) : list word :=
  flat_map (fun r => if Bool.eqb (rg_flag r) b then rg_names r else []) regs.
Lemma IsReg_names b regs n : IsReg b regs n <-> In n (reg_names b regs).
Proof.
  unfold IsReg, reg_names. rewrite in_flat_map. split.
  - intros (r & Hr & Hn & Hb). exists r. split; auto. rewrite Hb. now rewrite Bool.eqb_reflx.
  - intros (r & Hr & Hn). destruct (Bool.eqb (rg_flag r) b) eqn:E; [|destruct Hn].
    apply Bool.eqb_prop in E. exists r. auto.
Qed.
Definition inclb (a b : list word) : bool := forallb (fun x => existsb (str_eqb x) b) a.
Lemma inclb_ok a b : inclb a b = true -> incl a b.
Proof.
  unfold inclb. rewrite forallb_forall. intros H x Hx. specialize (H x Hx). now apply existsb_str.
Qed.
Definition same_names (A B : list reg) : bool :=
  inclb (reg_names true A) (reg_names true B) && inclb (reg_names true B) (reg_names true A) &&
  inclb (reg_names false A) (reg_names false B) && inclb (reg_names false B) (reg_names false A).
Lemma same_names_ok A B : same_names A B = true -> forall b n, IsReg b A n <-> IsReg b B n.
Proof.
  unfold same_names. rewrite !andb_true_iff. intros [[[H1 H2] H3] H4] b n.
  rewrite !IsReg_names. apply inclb_ok in H1, H2, H3, H4. destruct b; split; intros I; auto.
Qed.

(** the registration to which a name belongs *)
Fixpoint group (regs : list reg) (n : word) : list word :=
  match regs with
  | [] => []
  | r :: t => if existsb (str_eqb n) (rg_names r) then rg_names r else group t n
  end.
Lemma group_reg regs n : In n (flat_map rg_names regs) -> exists r, In r regs /\ In n (rg_names r) /\ group regs n = rg_names r.
Proof.
  induction regs as [|r regs IH]; intros H; [destruct H|]. cbn [group].
  destruct (existsb (str_eqb n) (rg_names r)) eqn:E.
  - exists r. split; [now left|]. split; auto. now apply existsb_str.
  - cbn [flat_map] in H. apply in_app_or in H. destruct H as [H|H].
    + apply existsb_str in H. congruence.
    + destruct (IH H) as (r' & H1 & H2 & H3). exists r'. split; [now right|]. auto.
Qed.

(** ** steps *)
Section Steps.
  Variable T : Type.
  Variable strtod : str -> T.
  Notation opts := (opts T).
  Notation step := (step T).
  Variable regs : list reg.
  Variable its : list item.

  Definition fl (n : str) : bool := givenW its (group regs n).
  Definition vs (n : str) : list str := valuesW its (group regs n).

  (** the parser's answers agree with the command line *)
  Record Agree (p : clp) : Prop := {
    ag_flag : forall n, In n (flat_map rg_names regs) -> FlagSet p n = Ok (fl n);
    ag_set : forall n, In n (flat_map rg_names regs) -> OptionSet p n = Ok (match vs n with [] => false | _ => true end);
    ag_n : forall n, In n (flat_map rg_names regs) -> GetNTargets p n = Ok (List.length (vs n));
    ag_v : forall n i v, In n (flat_map rg_names regs) -> nth_error (vs n) i = Some v -> GetTargetString p n i = Ok v;
    ag_args : cl_args p = positional its;
    ag_empty : cl_empty p = match its with [] => true | _ => false end }.

  Definition kind_of (r : restriction) (c : conv) : kind :=
    match r, c with
    | kPosInt, AtolUlong => Seed
    | kPosInt, _ => Count
    | kAnyInt, _ => Int
    | kPosReal, _ => PosReal
    | kAnyReal, _ => Real
    | kNonzeroInt, _ => Text
    end.
  Definition fits (r : restriction) (c : conv) : bool :=
    match r, c with
    | kPosInt, Atoi | kPosInt, AtolInt | kPosInt, AtolUlong | kAnyInt, AtolInt
    | kPosReal, Strtod | kAnyReal, Strtod => true
    | _, _ => false
    end.
  Definition cval (c : conv) (v : str) : val T :=
    match c with Strtod => VR (strtod v) | _ => VZ (integer v) end.

  Lemma number_good r c v : fits r c = true -> Good (kind_of r c) v ->
    NotANumber v r = Ok false /\ convert strtod c v = Ok (cval c v).
  Proof.
    intros F H. destruct r, c; try discriminate F; cbn [kind_of Good] in H.
    - split; [now apply nan_int_good|]. destruct (atol_int H) as (z & E & E2). unfold convert. rewrite E. cbn [bind].
      rewrite E2. reflexivity.
    - split; [exact (nan_posint_good H)|]. unfold convert. rewrite (atoi_positive H). reflexivity.
    - split; [exact (nan_posint_good H)|]. unfold convert. destruct H as (Hne & Hd & _ & Hm).
      rewrite (atol_digits Hne Hd) by lia. cbn [bind cval]. rewrite (digits_integer Hd).
      rewrite to_int_id; auto. pose proof (decimal_nonneg Hd). lia.
    - split; [exact (nan_posint_good H)|]. unfold convert. destruct H as (Hne & Hd & _ & Hm).
      rewrite (atol_digits Hne Hd) by lia. cbn [bind cval]. rewrite (digits_integer Hd).
      rewrite to_ulong_id; auto. pose proof (decimal_nonneg Hd). lia.
    - split; [now apply nan_real_good|]. unfold convert. rewrite (cstr_no_nul (proj1 H)). reflexivity.
    - split; [now apply nan_posreal_good|]. unfold convert. rewrite (cstr_no_nul (proj1 H)). reflexivity.
  Qed.
  Lemma number_bad r c v : fits r c = true -> Bad (kind_of r c) v -> NotANumber v r = Ok true.
  Proof.
    intros F H. destruct r, c; try discriminate F; cbn [kind_of] in H.
    - now apply nan_int_bad.
    - now apply nan_posint_bad.
    - now apply nan_posint_bad.
    - now apply nan_posint_bad.
    - now apply nan_real_bad.
    - now apply nan_posreal_bad.
  Qed.

  (** what a step does to a member *)
  Definition mem (k : key) (l : list key) : bool := existsb (key_beq k) l.
  Definition any (ns : list str) : bool := existsb fl ns.
  Definition den (st : step) (o : opts) : opts := fun k =>
    match st with
    | SExit _ _ => o k
    | SFlag ns a => if mem k (map fst a) then (if any ns then puts o a k else o k) else o k
    | SArg k0 a =>
        if mem k (k0 :: map fst a)
        then match positional its with w :: _ => puts (put o k0 (VS w)) a k | [] => o k end else o k
    | SText n k0 a | SName n k0 a =>
        if mem k (k0 :: map fst a)
        then match vs n with v :: _ => puts (put o k0 (VS v)) a k | [] => o k end else o k
    | SNum n r c k0 a =>
        if mem k (k0 :: map fst a)
        then match vs n with v :: _ => puts (put o k0 (cval c v)) a k | [] => o k end else o k
    | STexts n k0 cnt a =>
        if key_beq k k0 then match vs n with [] => o k | l => VSs (strs (o k) ++ l) end
        else if match cnt with Some c => key_beq k c | None => false end
             then match vs n with [] => o k | l => VZ (int_of (o k) + Z.of_nat (List.length l)) end
        else if mem k (map fst a) then match vs n with [] => o k | _ => puts o a k end else o k
    | SNums n r c k0 =>
        if key_beq k k0 then match vs n with [] => o k | l => VZs (ints (o k) ++ map integer l) end else o k
    | SDims =>
        if key_beq k K_noImageDimensions
        then (if negb (int_of (o K_nColumns) =? 0)%Z && negb (int_of (o K_nRows) =? 0)%Z then VB false else o k)
        else o k
    end.
  Definition den_all (sts : list step) (o : opts) : opts := fold_left (fun o st => den st o) sts o.

  Lemma key_beq_refl k : key_beq k k = true. Proof. destruct k; reflexivity. Qed.
  Lemma key_beq_true k k' : key_beq k k' = true -> k = k'.
  Proof. destruct k; destruct k'; cbv; intros H; try reflexivity; discriminate H. Qed.

  Lemma put_eq o k v : put (T:=T) o k v k = v.
  Proof. unfold put. now rewrite key_beq_refl. Qed.
  Lemma put_neq o k v k' : key_beq k' k = false -> put (T:=T) o k v k' = o k'.
  Proof. unfold put. now intros ->. Qed.
  Lemma puts_other o a k : mem k (map fst a) = false -> puts (T:=T) o a k = o k.
  Proof.
    revert o. induction a as [|[k0 v] a IH]; intros o H; [reflexivity|].
    unfold puts. cbn [fold_left fst snd]. change (puts (put o k0 v) a k = o k). unfold mem in H.
    cbn [map fst existsb] in H. apply orb_false_iff in H. destruct H as [H1 H2]. rewrite (IH _ H2). now apply put_neq.
  Qed.
  Lemma puts_ext o o' a k : o k = o' k -> puts (T:=T) o a k = puts o' a k.
  Proof.
    revert o o'. induction a as [|[k0 v] a IH]; intros o o' H; [exact H|].
    unfold puts. cbn [fold_left fst snd]. apply IH. unfold put. destruct (key_beq k k0); auto.
  Qed.
  Lemma put_puts_other o k0 v a k : mem k (k0 :: map fst a) = false -> puts (T:=T) (put o k0 v) a k = o k.
  Proof.
    unfold mem. cbn [existsb]. intros H. apply orb_false_iff in H. destruct H as [H1 H2].
    rewrite (puts_other _ H2). now apply put_neq.
  Qed.

  (** the option-sheet entry that a step consults *)
  Definition entry (st : step) : option (kind * list word) :=
    match st with
    | SExit n _ => Some (Stop, group regs n)
    | SName n _ _ => Some (Solver, group regs n)
    | SNum n r c _ _ => Some (kind_of r c, group regs n)
    | SNums n _ _ _ => Some (Counts, group regs n)
    | _ => None
    end.
  Definition or_empty (st : step) : bool := match st with SExit _ e => e | _ => false end.
  Definition good (st : step) : Prop :=
    match entry st with
    | Some (Stop, ns) => givenW its ns = false
    | Some (k, ns) => Forall (Good k) (counted k (valuesW its ns))
    | None => True
    end /\ (or_empty st = true -> its <> []).
  Definition bad (st : step) : Prop :=
    match entry st with
    | Some (Stop, ns) => givenW its ns = true
    | Some (k, ns) => Exists (Bad k) (counted k (valuesW its ns))
    | None => False
    end \/ (or_empty st = true /\ its = []).
  Definition readable (st : step) : Prop :=
    match entry st with
    | Some (Stop, ns) => True
    | Some (k, ns) => Forall (fun v => Good k v \/ Bad k v) (counted k (valuesW its ns))
    | None => True
    end.

  Definition known (n : str) : bool := existsb (str_eqb n) (flat_map rg_names regs).
  Definition wf (st : step) : bool :=
    match st with
    | SExit n _ | SText n _ _ | SName n _ _ => known n
    | SFlag ns a => forallb known ns
    | SArg _ _ => true
    | SNum n r c k a => known n && fits r c
    | STexts n k0 cnt a => known n && negb (mem k0 (map fst a)) &&
        match cnt with Some c => negb (key_beq c k0) && negb (mem c (map fst a)) | None => true end
    | SNums n r c k0 => known n && match r, c with kPosInt, Atoi => true | _, _ => false end
    | SDims => false
    end.
  Lemma known_in n : known n = true -> In n (flat_map rg_names regs).
  Proof. apply existsb_str. Qed.

  Variable p : clp.
  Hypothesis AG : Agree p.

  Lemma any_flag_ok ns : forallb known ns = true -> any_flag p ns = Ok (any ns).
  Proof.
    unfold any_flag, any. rewrite forallb_forall. intros H.
    assert (G : forall b, fold_left (fun b n => do b <- b; do f <- FlagSet p n; Ok (b || f)) ns (Ok b) = Ok (b || existsb fl ns)).
    { induction ns as [|n ns IH]; intros b; cbn [fold_left existsb].
      - now rewrite orb_false_r.
      - cbn [bind]. rewrite (ag_flag AG) by (apply known_in; apply H; now left). cbn [bind].
        rewrite IH by (intros x Hx; apply H; now right). now rewrite orb_assoc. }
    apply G.
  Qed.
  Lemma first_target n v l : In n (flat_map rg_names regs) -> vs n = v :: l -> GetTargetString p n 0 = Ok v.
  Proof. intros H E. apply (ag_v AG H). rewrite E. reflexivity. Qed.

  (** the loops over the targets *)
  Definition text_state (o : opts) (k0 : key) (cnt : option key) (l : list str) (o' : opts) : Prop :=
    o' k0 = VSs (strs (o k0) ++ l) /\
    (forall c, cnt = Some c -> int_of (o' c) = int_of (o c) + Z.of_nat (List.length l) /\ (l <> [] -> o' c = VZ (int_of (o c) + Z.of_nat (List.length l))))%Z /\
    forall k, key_beq k k0 = false -> (forall c, cnt = Some c -> key_beq k c = false) -> o' k = o k.

  Lemma texts_loop n k0 cnt o : In n (flat_map rg_names regs) ->
    (forall c, cnt = Some c -> key_beq c k0 = false) -> vs n <> [] ->
    exists o', for_ (List.length (vs n)) (fun i o =>
        do s <- GetTargetString p n i; Ok (incr (push_str o k0 s) cnt)) o = Ok o' /\ text_state o k0 cnt (vs n) o'.
  Proof.
    intros Hn Hc Hne.
    destruct (@for_inv _ (fun i (o' : opts) => i = 0 /\ o' = o \/ 0 < i /\ text_state o k0 cnt (firstn i (vs n)) o')
      (fun i o => do s <- GetTargetString p n i; Ok (incr (push_str o k0 s) cnt)) (List.length (vs n)) o) as (o' & E & P).
    - now left.
    - intros i o1 Hi HP.
      destruct (nth_error (vs n) i) as [v|] eqn:Ev; [|apply nth_error_None in Ev; lia].
      rewrite (ag_v AG Hn Ev). cbn [bind]. eexists. split; [reflexivity|]. right. split; [lia|].
      assert (EF : firstn (S i) (vs n) = firstn i (vs n) ++ [v]).
      { clear -Ev. revert i Ev. generalize (vs n) as l. induction l as [|a l IH]; intros [|i] Ev; cbn in *; try discriminate.
        - inversion Ev. reflexivity. - f_equal. now apply IH. }
      rewrite EF.
      assert (Lk0 : forall c, cnt = Some c -> key_beq k0 c = false).
      { intros c Ec. specialize (Hc _ Ec). destruct (key_beq k0 c) eqn:E; auto. apply key_beq_true in E. subst.
        rewrite key_beq_refl in Hc. discriminate. }
      assert (K0 : forall w : opts, incr (push_str w k0 v) cnt k0 = VSs (strs (w k0) ++ [v])).
      { intros w. destruct cnt as [c|]; cbn [incr].
        - rewrite put_neq by (apply Lk0; reflexivity). apply put_eq.
        - apply put_eq. }
      assert (KC : forall (w : opts) c, cnt = Some c -> incr (push_str w k0 v) cnt c = VZ (int_of (w c) + 1)).
      { intros w c ->. cbn [incr]. rewrite put_eq. unfold push_str. rewrite put_neq by (apply Hc; reflexivity). reflexivity. }
      assert (KO : forall (w : opts) k, key_beq k k0 = false -> (forall c, cnt = Some c -> key_beq k c = false) ->
                    incr (push_str w k0 v) cnt k = w k).
      { intros w k H1 H2. destruct cnt as [c|]; cbn [incr].
        - rewrite put_neq by (apply H2; reflexivity). now apply put_neq.
        - now apply put_neq. }
      destruct HP as [[-> ->]|[Hpos (P1 & P2 & P3)]].
      + split; [|split].
        * rewrite K0. reflexivity.
        * intros c Ec. rewrite (KC _ _ Ec). cbn. split; auto.
        * intros k H1 H2. now apply KO.
      + split; [|split].
        * rewrite K0, P1. cbn [strs]. now rewrite app_assoc.
        * intros c Ec. rewrite (KC _ _ Ec). destruct (P2 _ Ec) as [Q1 _]. rewrite Q1. rewrite app_length, Nat2Z.inj_add.
          change (Z.of_nat (List.length [v])) with 1%Z.
          rewrite Z.add_assoc. split; auto.
        * intros k H1 H2. rewrite KO by auto. now apply P3.
    - exists o'. split; auto. destruct P as [[P _]|[_ P]].
      + destruct (vs n); [congruence|discriminate].
      + now rewrite firstn_all in P.
  Qed.

  Definition nums_body (n : str) (k0 : key) (i : nat) (x : outcome T) : res (outcome T) :=
    match x with
    | Exit z => Ok (Exit z)
    | Run o =>
        do s <- GetTargetString p n i;
        do bad <- NotANumber s kPosInt;
        if bad then Ok (Exit 1) else do v <- convert strtod Atoi s; Ok (Run (push_int o k0 v))
    end.
  Lemma nums_loop n k0 o : In n (flat_map rg_names regs) ->
    Forall (fun v => Good Counts v \/ Bad Counts v) (vs n) ->
    (Forall (Good Counts) (vs n) /\ exists o', for_ (List.length (vs n)) (nums_body n k0) (Run o) = Ok (Run o') /\
       (vs n <> [] -> o' k0 = VZs (ints (o k0) ++ map integer (vs n))) /\ forall k, key_beq k k0 = false -> o' k = o k) \/
    (Exists (Bad Counts) (vs n) /\ for_ (List.length (vs n)) (nums_body n k0) (Run o) = Ok (Exit 1)).
  Proof.
    intros Hn HR.
    destruct (@for_inv _ (fun i x =>
       (exists o', x = Run o' /\ Forall (Good Counts) (firstn i (vs n)) /\
         (0 < i -> o' k0 = VZs (ints (o k0) ++ map integer (firstn i (vs n)))) /\ (i = 0 -> o' = o) /\
         forall k, key_beq k k0 = false -> o' k = o k) \/
       (x = Exit 1 /\ Exists (Bad Counts) (vs n))) (nums_body n k0) (List.length (vs n)) (Run o)) as (x & E & P).
    - left. exists o. split; [reflexivity|]. split; [constructor|]. split; [lia|]. auto.
    - intros i x Hi [(o1 & -> & G & V & V0 & O)|[-> B]].
      2:{ exists (Exit 1). split; [reflexivity|]. right. auto. }
      destruct (nth_error (vs n) i) as [v|] eqn:Ev; [|apply nth_error_None in Ev; lia].
      unfold nums_body. rewrite (ag_v AG Hn Ev). cbn [bind].
      assert (EF : firstn (S i) (vs n) = firstn i (vs n) ++ [v]).
      { clear -Ev. revert i Ev. generalize (vs n) as l. induction l as [|a l IH]; intros [|i] Ev; cbn in *; try discriminate.
        - inversion Ev. reflexivity. - f_equal. now apply IH. }
      assert (Iv : In v (vs n)) by (eapply nth_error_In; eauto).
      rewrite Forall_forall in HR. destruct (HR _ Iv) as [Gv|Bv].
      + destruct (@number_good kPosInt Atoi v eq_refl Gv) as [E1 E2]. rewrite E1. cbn [bind].
        unfold convert in E2. unfold convert. rewrite E2. cbn [bind]. eexists. split; [reflexivity|].
        left. eexists. split; [reflexivity|]. rewrite EF. split; [apply Forall_app; split; auto|].
        split; [|split; [lia|]].
        * intros _. unfold push_int. rewrite put_eq. cbn [cval int_of]. rewrite map_app. cbn [map].
          destruct i as [|i].
          -- rewrite (V0 eq_refl). reflexivity.
          -- rewrite V by lia. cbn [ints]. now rewrite app_assoc.
        * intros k Hk. unfold push_int. rewrite put_neq by auto. now apply O.
      + rewrite (@number_bad kPosInt Atoi v eq_refl Bv). cbn [bind]. exists (Exit 1). split; [reflexivity|].
        right. split; auto. apply Exists_exists. eauto.
    - destruct P as [(o' & -> & G & V & V0 & O)|[-> B]].
      + left. rewrite firstn_all in G, V. split; auto. exists o'. split; [exact E|]. split; auto. intros Hne. apply V.
        destruct (vs n); [congruence|cbn; lia].
      + right. auto.
  Qed.

  Lemma step_ok st o : wf st = true -> readable st ->
    (good st /\ exists o', run_step strtod p st o = Ok (Run o') /\ forall k, o' k = den st o k) \/
    (bad st /\ run_step strtod p st o = Ok (Exit 1)).
  Proof.
    intros W R. destruct st as [n e|ns a|k0 a|n k0 a|n k0 a|n r c k0 a|n k0 cnt a|n r c k0|]; cbn [wf] in W.
    - (* SExit *)
      apply known_in in W. cbn [run_step]. rewrite (ag_flag AG W). cbn [bind]. rewrite (ag_empty AG).
      unfold fl. destruct (givenW its (group regs n)) eqn:G; cbn [orb].
      + right. split; [|reflexivity]. left. exact G.
      + destruct e; cbn [andb].
        * assert (EI : its = [] \/ its <> []) by (destruct its; [now left|right; discriminate]). destruct EI as [EI|EI].
          -- right. split; [right; auto|]. rewrite EI. reflexivity.
          -- left. split; [split; [exact G|intros _; exact EI]|]. exists o. split; [|auto].
             destruct its; [congruence|reflexivity].
        * left. split; [split; [exact G|discriminate]|]. exists o. auto.
    - (* SFlag *)
      left. split; [split; [exact I|discriminate]|]. cbn [run_step]. rewrite (any_flag_ok W). cbn [bind].
      destruct (any ns) eqn:A.
      + eexists. split; [reflexivity|]. intros k. cbn [den]. rewrite A. destruct (mem k (map fst a)) eqn:M; auto.
        now apply puts_other.
      + exists o. split; [reflexivity|]. intros k. cbn [den]. rewrite A. destruct (mem k (map fst a)); auto.
    - (* SArg *)
      left. split; [split; [exact I|discriminate]|]. cbn [run_step]. unfold nArguments, GetArgument. rewrite (ag_args AG).
      destruct (positional its) as [|w l] eqn:EP.
      + exists o. split; [reflexivity|]. intros k. cbn [den]. rewrite EP. destruct (mem k (k0 :: map fst a)); auto.
      + cbn [List.length Nat.ltb Nat.leb get nth_error bind]. eexists. split; [reflexivity|].
        intros k. cbn [den]. rewrite EP. destruct (mem k (k0 :: map fst a)) eqn:M; auto. now apply put_puts_other.
    - (* SText *)
      apply known_in in W. left. split; [split; [exact I|discriminate]|]. cbn [run_step]. rewrite (ag_set AG W). cbn [bind].
      destruct (vs n) as [|v l] eqn:EV.
      + exists o. split; [reflexivity|]. intros k. cbn [den]. rewrite EV. destruct (mem k (k0 :: map fst a)); auto.
      + rewrite (first_target W EV). cbn [bind]. eexists. split; [reflexivity|].
        intros k. cbn [den]. rewrite EV. destruct (mem k (k0 :: map fst a)) eqn:M; auto. now apply put_puts_other.
    - (* SName *)
      apply known_in in W. cbn [run_step]. rewrite (ag_set AG W). cbn [bind].
      unfold readable in R. cbn [entry] in R. change (valuesW its (group regs n)) with (vs n) in R.
      destruct (vs n) as [|v l] eqn:EV.
      + left. split; [split; [|discriminate]|].
        { cbn [entry]. change (valuesW its (group regs n)) with (vs n). rewrite EV. constructor. }
        exists o. split; [reflexivity|]. intros k. cbn [den]. rewrite EV. destruct (mem k (k0 :: map fst a)); auto.
      + rewrite (first_target W EV). cbn [bind]. destruct (ValidNLOptSolverName v) eqn:V.
        * left. split; [split; [|discriminate]|].
          { cbn [entry]. change (valuesW its (group regs n)) with (vs n). rewrite EV. constructor; [|constructor].
            now apply solver_valid. }
          eexists. split; [reflexivity|]. intros k. cbn [den]. rewrite EV.
          destruct (mem k (k0 :: map fst a)) eqn:M; auto. now apply put_puts_other.
        * right. split; [|reflexivity]. left. cbn [entry]. change (valuesW its (group regs n)) with (vs n). rewrite EV.
          constructor. cbn [Bad]. intros I. apply solver_valid in I. congruence.
    - (* SNum *)
      apply andb_true_iff in W. destruct W as [W F]. apply known_in in W. cbn [run_step]. rewrite (ag_set AG W). cbn [bind].
      assert (KN : is_queue (kind_of r c) = false) by (destruct r, c; reflexivity).
      assert (KS : forall A (x y : A), (match kind_of r c with Stop => x | _ => y end) = y) by (intros; destruct r, c; reflexivity).
      unfold readable in R. cbn [entry] in R. rewrite KS in R.
      change (valuesW its (group regs n)) with (vs n) in R. unfold counted in R. rewrite KN in R.
      destruct (vs n) as [|v l] eqn:EV.
      + left. split; [split; [|discriminate]|].
        { cbn [entry]. rewrite KS. change (valuesW its (group regs n)) with (vs n). rewrite EV. unfold counted. rewrite KN. constructor. }
        exists o. split; [reflexivity|]. intros k. cbn [den]. rewrite EV. destruct (mem k (k0 :: map fst a)); auto.
      + rewrite (first_target W EV). cbn [bind firstn] in *. apply Forall_cons_iff in R. destruct R as [[G|B] _].
        * destruct (number_good F G) as [E1 E2]. rewrite E1. cbn [bind]. rewrite E2. cbn [bind].
          left. split; [split; [|discriminate]|].
          { cbn [entry]. rewrite KS. change (valuesW its (group regs n)) with (vs n). rewrite EV. unfold counted. rewrite KN. constructor; auto. }
          eexists. split; [reflexivity|]. intros k. cbn [den]. rewrite EV.
          destruct (mem k (k0 :: map fst a)) eqn:M; auto. now apply put_puts_other.
        * rewrite (number_bad F B). cbn [bind]. right. split; [|reflexivity]. left. cbn [entry]. rewrite KS.
          change (valuesW its (group regs n)) with (vs n). rewrite EV. unfold counted. rewrite KN. constructor. exact B.
    - (* STexts *)
      rewrite !andb_true_iff in W. destruct W as [[W Wk] Wc]. apply known_in in W. apply negb_true_iff in Wk.
      left. split; [split; [exact I|discriminate]|]. cbn [run_step]. rewrite (ag_set AG W). cbn [bind].
      destruct (vs n) as [|v l] eqn:EV.
      + exists o. split; [reflexivity|]. intros k. cbn [den]. rewrite EV.
        destruct (key_beq k k0); auto. destruct (match cnt with Some c => key_beq k c | None => false end); auto.
        destruct (mem k (map fst a)); auto.
      + rewrite (ag_n AG W). cbn [bind].
        assert (Hc : forall c, cnt = Some c -> key_beq c k0 = false /\ mem c (map fst a) = false).
        { intros c ->. apply andb_true_iff in Wc. destruct Wc as [W1 W2]. split; now apply negb_true_iff. }
        assert (Hne : vs n <> []) by (rewrite EV; discriminate).
        destruct (@texts_loop n k0 cnt (puts o a) W (fun c Ec => proj1 (Hc c Ec)) Hne) as (o' & E & P1 & P2 & P3).
        rewrite E. cbn [bind]. exists o'. split; [reflexivity|]. intros k. cbn [den]. rewrite EV in *.
        destruct (key_beq k k0) eqn:K0.
        * apply key_beq_true in K0. subst k. rewrite P1. rewrite (puts_other _ Wk). reflexivity.
        * destruct (match cnt with Some c => key_beq k c | None => false end) eqn:KC.
          -- destruct cnt as [c|]; [|discriminate]. apply key_beq_true in KC. subst k.
             destruct (P2 c eq_refl) as [_ Q]. rewrite Q by discriminate.
             rewrite (puts_other _ (proj2 (Hc c eq_refl))). reflexivity.
          -- rewrite P3.
             ++ destruct (mem k (map fst a)) eqn:M; auto. now apply puts_other.
             ++ exact K0.
             ++ intros c ->. exact KC.
    - (* SNums *)
      apply andb_true_iff in W. destruct W as [W F]. apply known_in in W.
      destruct r; try discriminate F. destruct c; try discriminate F.
      unfold readable in R. cbn [entry] in R. change (valuesW its (group regs n)) with (vs n) in R.
      change (counted Counts (vs n)) with (vs n) in R.
      cbn [run_step]. rewrite (ag_set AG W). cbn [bind].
      destruct (vs n) as [|v l] eqn:EV.
      + left. split; [split; [|discriminate]|].
        { cbn [entry]. change (valuesW its (group regs n)) with (vs n). rewrite EV. constructor. }
        exists o. split; [reflexivity|]. intros k. cbn [den]. rewrite EV. destruct (key_beq k k0); auto.
      + rewrite (ag_n AG W). cbn [bind]. rewrite <- EV in R.
        destruct (@nums_loop n k0 o W R) as [(G & o' & E & V & O)|(B & E)].
        * left. split; [split; [|discriminate]|].
          { cbn [entry]. exact G. }
          exists o'. split; [exact E|]. intros k. cbn [den]. destruct (key_beq k k0) eqn:K0.
          -- apply key_beq_true in K0. subst k. rewrite V by (rewrite EV; discriminate). rewrite EV. reflexivity.
          -- now apply O.
        * right. split; [|exact E]. left. exact B.
    - discriminate W.
  Qed.

  Lemma den_ext st o o' : (forall k, o k = o' k) -> forall k, den st o k = den st o' k.
  Proof.
    intros H k.
    assert (P : forall (b : bool) (x y : val T), (b = true -> x = y) -> (if b then x else o k) = (if b then y else o' k)).
    { intros b x y Hb. destruct b; auto. }
    assert (PP : forall k0 v a, puts (put o k0 v) a k = puts (put o' k0 v) a k).
    { intros k0 v a. apply puts_ext. unfold put. destruct (key_beq k k0); auto. }
    destruct st as [n e|ns a|k0 a|n k0 a|n k0 a|n r c k0 a|n k0 cnt a|n r c k0|]; cbn [den].
    - apply H.
    - apply P. intros _. destruct (any ns); auto. apply puts_ext. auto.
    - apply P. intros _. destruct (positional its); auto.
    - apply P. intros _. destruct (vs n); auto.
    - apply P. intros _. destruct (vs n); auto.
    - apply P. intros _. destruct (vs n); auto.
    - rewrite H. destruct (key_beq k k0); auto. destruct (match cnt with Some c => key_beq k c | None => false end); auto.
      destruct (mem k (map fst a)); auto. destruct (vs n); auto. apply puts_ext. auto.
    - rewrite H. destruct (key_beq k k0); auto.
    - rewrite !H. destruct (key_beq k K_noImageDimensions); auto.
  Qed.
  Lemma den_all_ext sts : forall o o', (forall k, o k = o' k) -> forall k, den_all sts o k = den_all sts o' k.
  Proof.
    induction sts as [|st sts IH]; intros o o' H; [exact H|].
    unfold den_all. cbn [fold_left]. apply IH. now apply den_ext.
  Qed.

  Lemma kind_good_bad k v : Good k v -> Bad k v -> False.
  Proof.
    clear. destruct k; cbn [Good Bad]; intros G B; auto.
    - destruct G as (Hne & Hd & Hz & _). destruct v as [|c d]; [congruence|]. destruct (B c d eq_refl) as [_ N]. apply N.
      apply Forall_cons_iff in Hd. destruct Hd as [Hc _]. specialize (Hz c d eq_refl). unfold Dig in Hc. lia.
    - destruct G as (Hne & Hd & Hz & _). destruct v as [|c d]; [congruence|]. destruct (B c d eq_refl) as [_ N]. apply N.
      apply Forall_cons_iff in Hd. destruct Hd as [Hc _]. specialize (Hz c d eq_refl). unfold Dig in Hc. lia.
    - destruct G as [(Hne & Hd & _)|(d & -> & _)].
      + destruct v as [|c d]; [congruence|]. destruct (B c d eq_refl) as [_ N]. apply N. left.
        apply Forall_cons_iff in Hd. tauto.
      + destruct (B _ _ eq_refl) as [_ N]. apply N. now right.
    - destruct G as [_ [(c & d & -> & D)|(c & d & -> & D)]]; destruct (B _ _ eq_refl) as [_ N]; apply N; auto.
    - destruct G as [_ [[(c & d & -> & D)|(c & d & -> & D)]|(d & -> & _)]]; destruct (B _ _ eq_refl) as [_ N]; apply N; auto.
    - destruct G as (Hne & Hd & Hz & _). destruct v as [|c d]; [congruence|]. destruct (B c d eq_refl) as [_ N]. apply N.
      apply Forall_cons_iff in Hd. destruct Hd as [Hc _]. specialize (Hz c d eq_refl). unfold Dig in Hc. lia.
  Qed.
  Lemma good_not_bad st : good st -> bad st -> False.
  Proof.
    intros [G1 G3] [B|[B1 B2]]; [|exact (G3 B1 B2)].
    destruct (entry st) as [[k ns]|]; auto.
    assert (Q : Forall (Good k) (counted k (valuesW its ns)) -> Exists (Bad k) (counted k (valuesW its ns)) -> False).
    { intros GF BE. apply Exists_exists in BE. destruct BE as (v & Iv & Bv). rewrite Forall_forall in GF.
      exact (kind_good_bad (GF v Iv) Bv). }
    destruct k; auto. congruence.
  Qed.
  Lemma good_readable st : good st -> readable st.
  Proof.
    intros [G1 _]. unfold readable. destruct (entry st) as [[k ns]|]; auto.
    destruct k; auto; eapply Forall_impl; try exact G1; intros v Hv; now left.
  Qed.

  Lemma run_steps_good sts : forall o, forallb wf sts = true -> Forall good sts ->
    exists o', run_steps strtod p sts o = Ok (Run o') /\ forall k, o' k = den_all sts o k.
  Proof.
    induction sts as [|st sts IH]; intros o W G.
    { exists o. split; [reflexivity|]. auto. }
    cbn [forallb] in W. apply andb_true_iff in W. destruct W as [W1 W2].
    apply Forall_cons_iff in G. destruct G as [G1 G2].
    destruct (step_ok o W1 (good_readable G1)) as [(_ & o1 & E & D)|(B & _)].
    - destruct (IH o1 W2 G2) as (o' & E' & D'). exists o'. cbn [run_steps]. rewrite E. cbn [bind]. split; auto.
      intros k. rewrite D'. unfold den_all. cbn [fold_left]. now apply den_all_ext.
    - destruct (good_not_bad G1 B).
  Qed.
  Lemma run_steps_bad sts : forall o, forallb wf sts = true -> Forall readable sts -> Exists bad sts ->
    run_steps strtod p sts o = Ok (Exit 1).
  Proof.
    induction sts as [|st sts IH]; intros o W R B; [inversion B|].
    cbn [forallb] in W. apply andb_true_iff in W. destruct W as [W1 W2].
    apply Forall_cons_iff in R. destruct R as [R1 R2]. cbn [run_steps].
    destruct (step_ok o W1 R1) as [(G & o1 & E & D)|(_ & E)]; rewrite E; cbn [bind]; auto.
    apply IH; auto. apply Exists_cons in B. destruct B as [B|B]; auto. destruct (good_not_bad G B).
  Qed.
End Steps.
