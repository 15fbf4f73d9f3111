(** The factorisation in exact arithmetic: Q is orthogonal. *)
From Coq Require Import ZArith List Bool Lia Reals Lra Permutation.
From Verif Require Import Base Num Sums Stats_Model Stats_Spec Stats_Proof DE_Model LM_Model LM_Spec DE_Proof LM_QR.
Import ListNotations.
Set Implicit Arguments. Unset Strict Implicit.
Local Open Scope R_scope.

Section Q.
Variable m : nat.
Notation vec := (nat -> R).
Definition ip (x y : vec) : R := rsum m (fun i => x i * y i).
Definition ent (c : list R) : vec := fun i => nth i c 0.
(** the inner product over rows [l] and below *)
Definition low (l : nat) (x y : vec) : R := rsum m (fun i => if (i <? l)%nat then 0 else x i * y i).
(** the reflection stored in column [l] *)
Definition refl (l : nat) (c x : vec) : vec := fun i =>
  if Req_EM_T (c l) 0 then x i else if (i <? l)%nat then x i else x i - low l c x / c l * c i.
Definition good (l : nat) (c : vec) : Prop := c l = 0 \/ low l c c = 2 * c l.

Lemma ip_ext x y x' y' : (forall i, (i < m)%nat -> x i = x' i) -> (forall i, (i < m)%nat -> y i = y' i) -> ip x y = ip x' y'.
Proof. intros A B. apply rsum_ext. intros i Hi. now rewrite A, B. Qed.
Lemma low_ext l x y x' y' : (forall i, (i < m)%nat -> x i = x' i) -> (forall i, (i < m)%nat -> y i = y' i) -> low l x y = low l x' y'.
Proof. intros A B. apply rsum_ext. intros i Hi. now rewrite A, B. Qed.
Lemma refl_ext l c c' x x' : (l < m)%nat -> (forall i, (i < m)%nat -> c i = c' i) -> (forall i, (i < m)%nat -> x i = x' i) ->
  forall i, (i < m)%nat -> refl l c x i = refl l c' x' i.
Proof.
  intros L A B i Hi. unfold refl. rewrite (A l L), (B i Hi), (A i Hi), (@low_ext l c x c' x' A B). reflexivity.
Qed.

Lemma refl_iso l c x y : good l c -> ip (refl l c x) (refl l c y) = ip x y.
Proof.
  intros G. unfold refl. destruct (Req_EM_T (c l) 0) as [Z|NZ]; [reflexivity|].
  destruct G as [G|G]; [contradiction|]. set (a := low l c x / c l). set (b := low l c y / c l).
  assert (E : ip x y - b * low l c x - a * low l c y + a * b * low l c c = ip x y).
  { rewrite G. unfold a, b. field. exact NZ. }
  rewrite <- E. unfold ip, low. rewrite <- !rsum_scal, <- !rsum_minus, <- rsum_plus. apply rsum_ext. intros i Hi.
  destruct (i <? l)%nat; ring.
Qed.

Fixpoint applyQ (k : nat) (cols : nat -> vec) (x : vec) : vec :=
  match k with O => x | S l => refl l (cols l) (applyQ l cols x) end.
Lemma applyQ_ext k cols cols' x : (k <= m)%nat -> (forall l i, (l < k)%nat -> (i < m)%nat -> cols l i = cols' l i) ->
  forall i, (i < m)%nat -> applyQ k cols x i = applyQ k cols' x i.
Proof.
  intros K H. induction k as [|k IH]; intros i Hi; cbn [applyQ]; [reflexivity|].
  apply refl_ext; [lia| | |exact Hi].
  - intros q Hq. apply H; lia.
  - apply IH; [lia|]. intros; apply H; lia.
Qed.
Lemma applyQ_iso k cols x y : (forall l, (l < k)%nat -> good l (cols l)) -> ip (applyQ k cols x) (applyQ k cols y) = ip x y.
Proof.
  intros G. induction k as [|k IH]; cbn [applyQ]; [reflexivity|]. rewrite refl_iso by (apply G; lia). apply IH. intros; apply G; lia.
Qed.
Lemma refl_low_zero l c x : (forall i, (l <= i < m)%nat -> x i = 0) -> forall i, (i < m)%nat -> refl l c x i = x i.
Proof.
  intros Z i Hi. unfold refl. destruct (Req_EM_T (c l) 0); [reflexivity|]. destruct (i <? l)%nat; [reflexivity|].
  assert (low l c x = 0) as ->. { apply rsum_zero. intros q Hq. destruct (Nat.ltb_spec q l); [reflexivity|]. rewrite Z by lia. ring. }
  unfold Rdiv. ring.
Qed.

Lemma dot_exact a b l : (m <= length a)%nat -> (m <= length b)%nat -> (l <= m)%nat -> dot NumR a b l m = Ok (low l (ent a) (ent b)).
Proof.
  intros A B L. unfold dot.
  destruct (@for_from_inv R (fun e s => s = rsum e (fun i => if (i <? l)%nat then 0 else ent a i * ent b i))
    (fun i sum => do x <- get a i; do y <- get b i; Ok (nadd NumR sum (nmul NumR x y))) (m - l) l (nofZ NumR 0)) as (s & E & P).
  - cbn [nofZ NumR]. symmetry. apply rsum_zero. intros i Hi. assert (i <? l = true)%nat as -> by (apply Nat.ltb_lt; lia). reflexivity.
  - intros i s Hi ->. rewrite (@get_nth _ 0 a i), (@get_nth _ 0 b i) by lia. cbn [bind]. eexists; split; [reflexivity|].
    cbn [rsum nadd nmul NumR]. assert (i <? l = false)%nat as -> by (apply Nat.ltb_ge; lia). reflexivity.
  - rewrite E, P. f_equal. unfold low. f_equal. lia.
Qed.

Variable enorm : list R -> R.
Variable B : R.
Hypothesis Bpos : 0 < B.
Hypothesis Hen : forall s, (length s <= m)%nat -> Forall (fun x => Rabs x < B) s -> enorm s = sqrt (sum_of_squares s).

Lemma sumsq_low j c : length c = m -> (j <= m)%nat -> sum_of_squares (firstn (m - j) (skipn j c)) = low j (ent c) (ent c).
Proof.
  intros L J. unfold sum_of_squares. rewrite rsuml_nth, map_length.
  assert (Ls : length (firstn (m - j) (skipn j c)) = (m - j)%nat) by (rewrite firstn_length, skipn_length; lia).
  rewrite Ls. unfold low. transitivity (rsum (j + (m - j)) (fun i => if (i <? j)%nat then 0 else ent c i * ent c i)); [|f_equal; lia]. rewrite rsum_app. rewrite (rsum_zero j).
  2:{ intros i Hi. assert (i <? j = true)%nat as -> by (apply Nat.ltb_lt; lia). reflexivity. }
  rewrite Rplus_0_l. apply rsum_ext. intros i Hi. assert (j + i <? j = false)%nat as -> by (apply Nat.ltb_ge; lia).
  assert (Hn : nth i (firstn (m - j) (skipn j c)) 0 = ent c (j + i)).
  { unfold ent. rewrite <- (firstn_skipn j c) at 2. rewrite app_nth2; rewrite firstn_length; [|lia].
    replace (j + i - Nat.min j (length c))%nat with i by lia.
    rewrite <- (firstn_skipn (m - j) (skipn j c)) at 2. rewrite app_nth1 by lia. reflexivity. }
  rewrite <- Hn. erewrite nth_indep by (rewrite map_length; lia).
  rewrite map_nth with (f := fun x => x * x). reflexivity.
Qed.

Lemma ip_ge j x : (j < m)%nat -> x j * x j <= ip x x.
Proof.
  intros J. assert (E : rsum m (fun i => if Nat.eqb i j then x i * x i else 0) = x j * x j).
  { rewrite (@rsum_single m j); [now rewrite Nat.eqb_refl|exact J|]. intros i _ Ne. apply Nat.eqb_neq in Ne. now rewrite Ne. }
  rewrite <- E. apply rsum_le. intros i Hi. destruct (Nat.eqb i j); nra.
Qed.
Lemma low_zero l x : low l x x = 0 -> forall i, (l <= i < m)%nat -> x i = 0.
Proof.
  intros H i Hi. assert (Q : (if (i <? l)%nat then 0 else x i * x i) = 0).
  { refine (@rsum_zero_terms m (fun i => if (i <? l)%nat then 0 else x i * x i) _ H i _); [|lia]. intros q _. destruct (q <? l)%nat; nra. }
  assert (i <? l = false)%nat as F by (apply Nat.ltb_ge; lia). rewrite F in Q. nra.
Qed.
Lemma low_nonneg l x : 0 <= low l x x.
Proof. apply rsum_nonneg. intros i _. destruct (i <? l)%nat; nra. Qed.
Lemma low_split l x y : (l < m)%nat -> low l x y = x l * y l + low (S l) x y.
Proof.
  intros L. unfold low.
  assert (E : rsum m (fun i => if Nat.eqb i l then x i * y i else 0) = x l * y l).
  { rewrite (@rsum_single m l); [now rewrite Nat.eqb_refl|exact L|]. intros i _ Ne. apply Nat.eqb_neq in Ne. now rewrite Ne. }
  rewrite <- E, <- rsum_plus. apply rsum_ext. intros i _.
  destruct (Nat.ltb_spec i l), (Nat.ltb_spec i (S l)), (Nat.eqb_spec i l); try lia; ring.
Qed.
Lemma low_scal l x y d : low l (fun i => x i / d) y = low l x y / d.
Proof. unfold low, Rdiv. rewrite <- rsum_scal_r. apply rsum_ext. intros i _. destruct (i <? l)%nat; ring. Qed.

(** the reflection made from a column *)
Lemma house j c cj a aj : (j < m)%nat -> low j c c = a * a -> 0 < a -> aj = (if Rltb (c j) 0 then - a else a) ->
  (forall i, (i < m)%nat -> cj i = if (i <? j)%nat then c i else if (i =? j)%nat then c i / aj + 1 else c i / aj) ->
  good j cj /\ 1 <= cj j /\ forall i, (i < m)%nat -> refl j cj c i = if (i <? j)%nat then c i else if (i =? j)%nat then - aj else 0.
Proof.
  intros J La Pa Haj Hcj.
  assert (Jj : cj j = c j / aj + 1) by (rewrite Hcj by assumption; now rewrite Nat.ltb_irrefl, Nat.eqb_refl).
  assert (Naj : aj <> 0) by (rewrite Haj; destruct (Rltb (c j) 0); lra).
  assert (Saj : aj * aj = a * a) by (rewrite Haj; destruct (Rltb (c j) 0); ring).
  assert (G1 : 1 <= cj j).
  { rewrite Jj. assert (0 <= c j / aj); [|lra]. rewrite Haj. destruct (Rltb (c j) 0) eqn:E.
    - apply Rltb_true in E. replace (c j / - a) with ((- c j) / a) by (field; lra). apply Rlt_le, Rdiv_lt_0_compat; lra.
    - apply Rltb_false in E. unfold Rdiv. apply Rmult_le_pos; [exact E|]. left. now apply Rinv_0_lt_compat. }
  assert (T1 : low (S j) cj cj = low (S j) c c / (aj * aj)).
  { unfold low, Rdiv. rewrite <- rsum_scal_r. apply rsum_ext. intros i Hi. destruct (Nat.ltb_spec i (S j)); [ring|].
    rewrite Hcj by assumption. assert (i <? j = false)%nat as -> by (apply Nat.ltb_ge; lia). assert (i =? j = false)%nat as -> by (apply Nat.eqb_neq; lia).
    field. exact Naj. }
  assert (T2 : low (S j) cj c = low (S j) c c / aj).
  { unfold low, Rdiv. rewrite <- rsum_scal_r. apply rsum_ext. intros i Hi. destruct (Nat.ltb_spec i (S j)); [ring|].
    rewrite Hcj by assumption. assert (i <? j = false)%nat as -> by (apply Nat.ltb_ge; lia). assert (i =? j = false)%nat as -> by (apply Nat.eqb_neq; lia).
    field. exact Naj. }
  rewrite (@low_split j c c J) in La.
  assert (T : low (S j) c c = aj * aj - c j * c j) by lra.
  assert (L1 : low j cj cj = 2 * cj j).
  { rewrite (@low_split j cj cj J), T1, T, Jj. field. exact Naj. }
  assert (L2 : low j cj c = cj j * aj).
  { rewrite (@low_split j cj c J), T2, T, Jj. field. exact Naj. }
  split; [right; exact L1|]. split; [exact G1|].
  intros i Hi. unfold refl. destruct (Req_EM_T (cj j) 0); [lra|]. rewrite L2.
  destruct (Nat.ltb_spec i j); [reflexivity|]. replace (cj j * aj / cj j) with aj by (field; lra).
  rewrite Hcj by assumption. assert (i <? j = false)%nat as -> by (apply Nat.ltb_ge; lia).
  destruct (i =? j)%nat; field; exact Naj.
Qed.

Variable n : nat.
Variable a0 : list (list R).
Hypothesis S0 : shape m n a0.
Hypothesis B0 : forall k, (k < n)%nat -> inner m (nth k a0 []) (nth k a0 []) < B * B.

Notation orig k := (ent (nth k a0 [])).
Definition columns (q : list (list R)) : nat -> vec := fun l => ent (nth l q []).
(** after [j] passes *)
Definition qinv (j : nat) (q : list (list R)) (ipvt : list nat) (rdiag : list R) : Prop :=
  (forall l, (l < j)%nat -> good l (columns q l)) /\
  forall k i, (k < n)%nat -> (i < m)%nat ->
    applyQ j (columns q) (orig (nth k ipvt 0%nat)) i = if (k <? j)%nat then upper q rdiag i k else ent (nth k q []) i.

Lemma perm_lt ipvt k : Permutation (seq 0 n) ipvt -> (k < n)%nat -> (nth k ipvt 0 < n)%nat.
Proof.
  intros P K. assert (In (nth k ipvt 0%nat) (seq 0 n)).
  { eapply Permutation_in; [symmetry; exact P|]. apply nth_In. rewrite <- (Permutation_length P), seq_length. exact K. }
  apply in_seq in H. lia.
Qed.
Lemma neg_sqrt0 x : 0 <= x -> sqrt x = 0 -> x = 0.
Proof. intros P E. now apply sqrt_eq_0. Qed.

Lemma qinv_step j q ipvt rdiag wa q' ipvt' rdiag' wa' : (j < m)%nat -> (j < n)%nat -> shape m n q -> Permutation (seq 0 n) ipvt ->
  length rdiag = n -> length wa = n -> qinv j q ipvt rdiag ->
  qrfac_step NumR enorm m n j (q, ipvt, rdiag, wa) = Ok (q', ipvt', rdiag', wa') -> qinv (S j) q' ipvt' rdiag'.
Proof.
  intros Jm Jn Sq Pp Lr Lw (G & V) E.
  assert (Li : length ipvt = n) by (rewrite <- (Permutation_length Pp), seq_length; reflexivity).
  destruct (@qrfac_step_ok R NumR enorm m n q ipvt rdiag wa j) as (q1 & i1 & r1 & w1 & E1 & Sq1 & Pp1 & Lr1 & Lw1 & kk & K & HI & HR & _ & _ & HA); try assumption.
  rewrite E1 in E. apply Ok_inj in E. injection E as -> -> -> ->. clear E1.
  (* entries below the current row are small enough for the norm to be exact *)
  assert (Small : forall k i, (k < n)%nat -> (j <= k)%nat -> (i < m)%nat -> Rabs (ent (nth k q []) i) < B).
  { intros k i Hk Hj Hi. pose proof (V k i Hk Hi) as Vk. assert (k <? j = false)%nat as F by (apply Nat.ltb_ge; lia). rewrite F in Vk.
    pose proof (ip_ge (applyQ j (columns q) (orig (nth k ipvt 0%nat))) Hi) as Q. rewrite Vk in Q. rewrite applyQ_iso in Q by exact G.
    pose proof (B0 (perm_lt Pp Hk)) as Bk. unfold inner in Bk. unfold ip, ent in Q.
    apply Rabs_def1; unfold ent in *; nra. }
  set (t := tr j kk j) in *. assert (Ht : (t < n)%nat) by (apply tr_lt; lia). assert (Hjt : (j <= t)%nat) by (apply tr_high; lia).
  set (c := nth t q []) in *. assert (Lc : length c = m) by (eapply shape_col; eauto).
  cbv beta zeta in HA. fold t in HA. fold c in HA.
  set (s := firstn (m - j) (skipn j c)) in *.
  assert (Es : enorm s = sqrt (low j (ent c) (ent c))).
  { rewrite Hen.
    - f_equal. apply sumsq_low; [exact Lc|lia].
    - unfold s. rewrite firstn_length, skipn_length. lia.
    - apply Forall_forall. intros x Hx. assert (In x c).
      { unfold s in Hx. rewrite <- (firstn_skipn j c). apply in_or_app. right. rewrite <- (firstn_skipn (m - j) (skipn j c)). apply in_or_app. now left. }
      apply In_nth with (d := 0) in H. destruct H as (i & Hi & <-). apply (Small t i Ht Hjt). lia. }
  pose proof (low_nonneg j (ent c)) as LN.
  assert (VV : forall k i, (k < n)%nat -> (i < m)%nat -> applyQ j (columns q) (orig (nth k ipvt' 0%nat)) i =
      if (k <? j)%nat then upper q rdiag i k else ent (nth (tr j kk k) q []) i).
  { intros k i Hk Hi. rewrite HI. rewrite (V (tr j kk k) i) by (try assumption; apply tr_lt; lia).
    destruct (Nat.ltb_spec k j).
    - rewrite tr_low by lia. assert (k <? j = true)%nat as -> by (apply Nat.ltb_lt; lia). reflexivity.
    - assert (tr j kk k <? j = false)%nat as -> by (apply Nat.ltb_ge; apply tr_high; lia). reflexivity. }
  destruct (neqb NumR (enorm s) (nofZ NumR 0)) eqn:Z.
  - destruct HA as (HA & HD). cbn [neqb nofZ NumR] in Z. apply Reqb_true in Z. rewrite Es in Z. apply neg_sqrt0 in Z; [|exact LN].
    assert (Low : forall l i, (l < j)%nat -> columns q' l i = columns q l i).
    { intros l i Hl. unfold columns. rewrite HA, tr_low by lia. reflexivity. }
    assert (Cz : forall i, (j <= i < m)%nat -> ent c i = 0) by (apply low_zero; exact Z).
    assert (Cj : columns q' j = ent c) by (unfold columns; rewrite HA; reflexivity).
    split.
    + intros l Hl. destruct (Nat.eq_dec l j) as [->|].
      * left. rewrite Cj. apply Cz. lia.
      * assert (Q : good l (columns q l)) by (apply G; lia). unfold good in *. rewrite Low by lia.
        rewrite (@low_ext l _ _ (columns q l) (columns q l)); [exact Q| |]; intros i _; apply Low; lia.
    + intros k i Hk Hi. cbn [applyQ]. unfold refl. rewrite Cj. destruct (Req_EM_T (ent c j) 0) as [_|Nz]; [|exfalso; apply Nz; apply Cz; lia].
      rewrite (@applyQ_ext j (columns q') (columns q)) by (try lia; intros; apply Low; lia). rewrite VV by assumption.
      destruct (Nat.ltb_spec k j), (Nat.ltb_spec k (S j)); try lia.
      * unfold upper. rewrite HA, tr_low by lia. rewrite HR by lia. reflexivity.
      * assert (k = j) by lia. subst k. fold t. fold c. unfold upper. rewrite HA. fold t. fold c.
        destruct (Nat.ltb_spec i j); [reflexivity|]. rewrite Cz by lia. destruct (i =? j)%nat; [|reflexivity].
        rewrite HD. cbn [nneg NumR]. rewrite Es, Z, sqrt_0. ring.
      * now rewrite HA.
  - cbn [neqb nofZ NumR] in Z. apply Reqb_false in Z. destruct HA as (HD & cj & Hsc & Hcj & Hlow & Href).
    set (aj := enorm s) in *. assert (Paj : 0 < aj). { rewrite Es in *. pose proof (sqrt_pos (low j (ent c) (ent c))). lra. }
    assert (Saj : low j (ent c) (ent c) = aj * aj) by (rewrite Es; now rewrite sqrt_sqrt).
    set (aj' := if nltb NumR (nth j c aj) (nofZ NumR 0) then nneg NumR aj else aj) in *.
    assert (Haj' : aj' = if Rltb (ent c j) 0 then - aj else aj).
    { unfold aj', ent. cbn [nltb nofZ nneg NumR]. rewrite (nth_indep c aj 0) by lia. reflexivity. }
    destruct (@scale_col_ok R NumR c j m aj') as (cj2 & Esc & Lcj & Pcj); [lia|exact Lc|].
    rewrite Esc in Hsc. apply Ok_inj in Hsc. subst cj2.
    destruct (@house j (ent c) (ent cj) aj aj' Jm Saj Paj Haj') as (Gj & G1 & Hh).
    { intros i Hi. unfold ent. rewrite Pcj by assumption. reflexivity. }
    assert (Low : forall l i, (l < j)%nat -> columns q' l i = columns q l i).
    { intros l i Hl. unfold columns. rewrite Hlow, tr_low by lia. reflexivity. }
    assert (Cj : columns q' j = ent cj) by (unfold columns; now rewrite Hcj).
    split.
    + intros l Hl. destruct (Nat.eq_dec l j) as [->|].
      * rewrite Cj. exact Gj.
      * assert (Q : good l (columns q l)) by (apply G; lia). unfold good in *. rewrite Low by lia.
        rewrite (@low_ext l _ _ (columns q l) (columns q l)); [exact Q| |]; intros i _; apply Low; lia.
    + intros k i Hk Hi. cbn [applyQ]. rewrite Cj.
      assert (Vk : forall i, (i < m)%nat -> applyQ j (columns q') (orig (nth k ipvt' 0%nat)) i = if (k <? j)%nat then upper q rdiag i k else ent (nth (tr j kk k) q []) i).
      { intros q2 Hq2. rewrite (@applyQ_ext j (columns q') (columns q)) by (try lia; intros; apply Low; lia). now apply VV. }
      rewrite (@refl_ext j _ (ent cj) _ _ Jm (fun _ _ => eq_refl) Vk i Hi).
      destruct (Nat.ltb_spec k j), (Nat.ltb_spec k (S j)); try lia.
      * rewrite refl_low_zero; [|intros i' Hi'|exact Hi].
        -- unfold upper. rewrite Hlow, tr_low by lia. rewrite HR by lia. reflexivity.
        -- unfold upper. assert (i' <? k = false)%nat as -> by (apply Nat.ltb_ge; lia). assert (i' =? k = false)%nat as -> by (apply Nat.eqb_neq; lia). reflexivity.
      * assert (k = j) by lia. subst k. fold t. fold c. change (fun i : nat => ent c i) with (ent c). rewrite Hh by assumption. unfold upper. rewrite Hcj.
        destruct (Nat.ltb_spec i j) as [Hij|Hij]; [|rewrite HD; reflexivity].
        unfold ent. rewrite Pcj by assumption. assert (i <? j = true)%nat as -> by (now apply Nat.ltb_lt). reflexivity.
      * assert (Hk' : (j < k < n)%nat) by lia. specialize (Href k Hk').
        destruct (@reflect_ok R NumR cj (nth (tr j kk k) q []) j m) as (sd & c' & Ed & Er & Lc' & Pc'); [lia|exact Lcj|eapply shape_col; eauto; apply tr_lt; lia|].
        rewrite Er in Href. apply Ok_inj in Href. rewrite <- Href.
        rewrite dot_exact in Ed; [|lia|rewrite (@shape_col R m n q _ Sq); [lia|apply tr_lt; lia]|lia]. apply Ok_inj in Ed.
        unfold ent at 3. rewrite Pc' by assumption. unfold refl. destruct (Req_EM_T (ent cj j) 0); [lra|].
        destruct (i <? j)%nat; [reflexivity|]. cbn [nsub nmul ndiv NumR]. rewrite <- Ed. reflexivity.
Qed.

Lemma qrfac_exact q ipvt rdiag acnorm : qrfac NumR enorm m n a0 = Ok (q, ipvt, rdiag, acnorm) ->
  shape m n q /\ Permutation (seq 0 n) ipvt /\ length rdiag = n /\ qinv (Nat.min m n) q ipvt rdiag.
Proof.
  intros E. unfold qrfac in E. destruct (acnorm_ok enorm S0) as (ac & Eac & Lac & Pac). rewrite Eac in E. cbn [bind] in E.
  apply bind_Ok in E. destruct E as ([[[q1 i1] r1] w1] & E & E2). apply Ok_inj in E2. injection E2 as -> -> -> ->.
  pose proof (@for_ok (matrix R * list nat * list R * list R) (fun j '(q, ip, rd, wa) => shape m n q /\ Permutation (seq 0 n) ip /\ length rd = n /\ length wa = n /\ qinv j q ip rd)
    (qrfac_step NumR enorm m n) (Nat.min m n) (a0, seq 0 n, acnorm, acnorm) (q, ipvt, rdiag, w1)) as H.
  assert (HH : shape m n q /\ Permutation (seq 0 n) ipvt /\ length rdiag = n /\ length w1 = n /\ qinv (Nat.min m n) q ipvt rdiag); [|tauto].
  apply H; clear H; [|intros j [[[q2 i2] r2] w2] [[[q3 i3] r3] w3] Hj (S2 & P2 & L2 & W2 & V2) E1|exact E].
  - split; [exact S0|]. split; [apply Permutation_refl|]. split; [exact Lac|]. split; [exact Lac|]. split; [intros; lia|].
    intros k i Hk Hi. cbn [applyQ]. rewrite seq_nth by assumption. reflexivity.
  - assert (Li : length i2 = n) by (rewrite <- (Permutation_length P2), seq_length; reflexivity).
    destruct (@qrfac_step_ok R NumR enorm m n q2 i2 r2 w2 j) as (q' & i' & r' & w' & E' & S' & P' & L' & W' & _); try assumption; try lia.
    pose proof E1 as E1'. rewrite E' in E1'. apply Ok_inj in E1'. injection E1' as -> -> -> ->.
    split; [exact S'|]. split; [eapply Permutation_trans; eauto|]. split; [exact L'|]. split; [exact W'|].
    eapply qinv_step with (q := q2) (ipvt := i2) (rdiag := r2) (wa := w2); try eassumption; lia.
Qed.

Lemma upper_Q q ipvt rdiag : qinv (Nat.min m n) q ipvt rdiag -> forall k i, (k < n)%nat -> (i < m)%nat ->
  applyQ (Nat.min m n) (columns q) (orig (nth k ipvt 0%nat)) i = upper q rdiag i k.
Proof.
  intros (_ & V) k i Hk Hi. rewrite V by assumption. destruct (Nat.ltb_spec k (Nat.min m n)); [reflexivity|].
  unfold upper. assert (i <? k = true)%nat as -> by (apply Nat.ltb_lt; lia). reflexivity.
Qed.

Lemma qr_gram q ipvt rdiag acnorm : qrfac NumR enorm m n a0 = Ok (q, ipvt, rdiag, acnorm) -> forall k l, (k < n)%nat -> (l < n)%nat ->
  rsum m (fun i => upper q rdiag i k * upper q rdiag i l) = inner m (nth (nth k ipvt 0%nat) a0 []) (nth (nth l ipvt 0%nat) a0 []).
Proof.
  intros E k l Hk Hl. destruct (qrfac_exact E) as (_ & _ & _ & Q). destruct Q as (G & V).
  transitivity (ip (applyQ (Nat.min m n) (columns q) (orig (nth k ipvt 0%nat))) (applyQ (Nat.min m n) (columns q) (orig (nth l ipvt 0%nat)))).
  - unfold ip. apply rsum_ext. intros i Hi. rewrite !(@upper_Q q ipvt rdiag (conj G V)) by assumption. reflexivity.
  - rewrite applyQ_iso by exact G. reflexivity.
Qed.

(** ---- column pivoting: a zero on the diagonal means that nothing is left ---- *)
Definition cur (j : nat) (q : list (list R)) (rdiag : list R) (i k : nat) : R := if (k <? j)%nat then upper q rdiag i k else ent (nth k q []) i.
Definition ninv (j : nat) (q : list (list R)) (rdiag : list R) : Prop :=
  (forall k, (j <= k < n)%nat -> nth k rdiag 0 = sqrt (low j (ent (nth k q [])) (ent (nth k q [])))) /\
  (forall p b, (p < j)%nat -> (p <= b < n)%nat -> low p (fun i => cur j q rdiag i b) (fun i => cur j q rdiag i b) <= nth p rdiag 0 * nth p rdiag 0).

Lemma find_kmax_max rdiag j k : (j < n)%nat -> (n <= length rdiag)%nat -> find_kmax NumR rdiag j n = Ok k ->
  (j <= k < n)%nat /\ forall i, (j <= i < n)%nat -> nth i rdiag 0 <= nth k rdiag 0.
Proof.
  intros J L E. unfold find_kmax in E.
  assert (H := fun A B => @for_from_ok nat (fun e k => (j <= k < n)%nat /\ forall i, (j <= i < e)%nat -> nth i rdiag 0 <= nth k rdiag 0) _ _ _ _ _ A B E).
  cbv beta in H. replace (j + (n - j))%nat with n in H by lia. apply H; clear H.
  - split; [lia|]. intros; lia.
  - intros e s s' He (Hs & A) E1. rewrite (@get_nth _ 0 rdiag s), (@get_nth _ 0 rdiag e) in E1 by lia. cbn [bind] in E1. apply Ok_inj in E1. cbn [nltb NumR] in E1.
    destruct (Rltb (nth s rdiag 0) (nth e rdiag 0)) eqn:Q; subst s'.
    + apply Rltb_true in Q. split; [lia|]. intros i Hi. destruct (Nat.eq_dec i e) as [->|]; [lra|]. specialize (A i ltac:(lia)). lra.
    + apply Rltb_false in Q. split; [lia|]. intros i Hi. destruct (Nat.eq_dec i e) as [->|]; [lra|]. apply A. lia.
Qed.

Lemma refl_low p l c x : (p <= l)%nat -> good l c -> low p (refl l c x) (refl l c x) = low p x x.
Proof.
  intros Hp G. pose proof (@refl_iso l c x x G) as I. unfold ip in I.
  assert (Sp : forall y, rsum m (fun i => y i * y i) = rsum m (fun i => if (i <? p)%nat then y i * y i else 0) + low p y y).
  { intros y. unfold low. rewrite <- rsum_plus. apply rsum_ext. intros i Hi. destruct (i <? p)%nat; ring. }
  rewrite (Sp (refl l c x)), (Sp x) in I.
  rewrite (@rsum_ext m (fun i => if (i <? p)%nat then refl l c x i * refl l c x i else 0) (fun i => if (i <? p)%nat then x i * x i else 0)) in I; [lra|].
  intros i Hi. unfold refl. destruct (Req_EM_T (c l) 0); [reflexivity|]. destruct (Nat.ltb_spec i p); [|reflexivity]. assert (i <? l = true)%nat as -> by (apply Nat.ltb_lt; lia). reflexivity.
Qed.

Lemma cur_Q j q ipvt rdiag : qinv j q ipvt rdiag -> forall k i, (k < n)%nat -> (i < m)%nat -> cur j q rdiag i k = applyQ j (columns q) (orig (nth k ipvt 0%nat)) i.
Proof. intros (_ & V) k i Hk Hi. unfold cur. now rewrite V. Qed.

Lemma ninv_step j q ipvt rdiag wa q' ipvt' rdiag' wa' : (j < m)%nat -> (j < n)%nat -> shape m n q -> Permutation (seq 0 n) ipvt ->
  length rdiag = n -> length wa = n -> qinv j q ipvt rdiag -> ninv j q rdiag ->
  qrfac_step NumR enorm m n j (q, ipvt, rdiag, wa) = Ok (q', ipvt', rdiag', wa') -> ninv (S j) q' rdiag'.
Proof.
  intros Jm Jn Sq Pp Lr Lw I0 (Nr & Zr) E. pose proof (qinv_step Jm Jn Sq Pp Lr Lw I0 E) as I1.
  assert (Li : length ipvt = n) by (rewrite <- (Permutation_length Pp), seq_length; reflexivity).
  destruct (@qrfac_step_ok R NumR enorm m n q ipvt rdiag wa j) as (q1 & i1 & r1 & w1 & E1 & Sq1 & Pp1 & Lr1 & Lw1 & kk & K & HI & HR & HK & HN & HA); try assumption.
  rewrite E1 in E. apply Ok_inj in E. injection E as -> -> -> ->. clear E1.
  assert (Pp' : Permutation (seq 0 n) ipvt') by (eapply Permutation_trans; eauto).
  destruct (@find_kmax_max rdiag j kk Jn ltac:(lia) HK) as (_ & Mx).
  assert (Small : forall jj qq pp rr, qinv jj qq pp rr -> Permutation (seq 0 n) pp -> forall k i, (k < n)%nat -> (jj <= k)%nat -> (i < m)%nat -> Rabs (ent (nth k qq []) i) < B).
  { intros jj qq pp rr (G & V) Ppp k i Hk Hj Hi. pose proof (V k i Hk Hi) as Vk. assert (k <? jj = false)%nat as F by (apply Nat.ltb_ge; lia). rewrite F in Vk.
    pose proof (ip_ge (applyQ jj (columns qq) (orig (nth k pp 0%nat))) Hi) as Q. rewrite Vk in Q. rewrite applyQ_iso in Q by exact G.
    pose proof (B0 (perm_lt Ppp Hk)) as Bk. unfold inner in Bk. unfold ip, ent in Q.
    apply Rabs_def1; unfold ent in *; nra. }
  assert (Hnorm : forall jj qq pp rr k, qinv jj qq pp rr -> Permutation (seq 0 n) pp -> shape m n qq -> (jj <= k < n)%nat -> (jj <= m)%nat -> 
     enorm (firstn (m - jj) (skipn jj (nth k qq []))) = sqrt (low jj (ent (nth k qq [])) (ent (nth k qq [])))).
  { intros jj qq pp rr k Iq Ppp Sqq Hk Hjm. assert (Lc : length (nth k qq []) = m) by (eapply shape_col; eauto; lia). rewrite Hen.
    - f_equal. apply sumsq_low; [exact Lc|lia].
    - rewrite firstn_length, skipn_length. lia.
    - apply Forall_forall. intros x Hx. assert (In x (nth k qq [])).
      { rewrite <- (firstn_skipn jj (nth k qq [])). apply in_or_app. right. rewrite <- (firstn_skipn (m - jj) (skipn jj (nth k qq []))). apply in_or_app. now left. }
      apply In_nth with (d := 0) in H. destruct H as (i & Hi & <-). apply (Small jj qq pp rr Iq Ppp k i); lia. }
  set (t := tr j kk j) in *. assert (Et : t = kk) by (unfold t, tr; now rewrite Nat.eqb_refl). cbv beta zeta in HA. fold t in HA.
  set (aj := enorm (firstn (m - j) (skipn j (nth t q [])))) in *.
  assert (Eaj : aj = sqrt (low j (ent (nth kk q [])) (ent (nth kk q [])))).
  { unfold aj. rewrite Et. apply (Hnorm j q ipvt rdiag kk); try assumption; lia. }
  (* columns after the step *)
  assert (Lowc : forall l i, (l < j)%nat -> columns q' l i = columns q l i).
  { intros l i Hl. unfold columns. destruct (neqb NumR aj (nofZ NumR 0)).
    - rewrite (proj1 HA), tr_low by lia. reflexivity.
    - destruct HA as (_ & cj & _ & _ & Hlow & _). rewrite Hlow, tr_low by lia. reflexivity. }
  assert (Tb : forall b, (b < n)%nat -> (tr j kk b < n)%nat) by (intros b Hb; apply tr_lt; lia).
  assert (CurS : forall i b, (i < m)%nat -> (b < n)%nat -> cur (S j) q' rdiag' i b = refl j (columns q' j) (fun i => cur j q rdiag i (tr j kk b)) i).
  { intros i b Hi Hb. rewrite (@cur_Q (S j) q' ipvt' rdiag' I1 b i Hb Hi). cbn [applyQ]. apply refl_ext; [exact Jm|reflexivity| |exact Hi].
    intros i' Hi'. rewrite (@cur_Q j q ipvt rdiag I0 (tr j kk b) i' (Tb b Hb) Hi'). rewrite HI. apply applyQ_ext; first [lia|reflexivity|idtac]. all: try (intros l i2 Hl Hi2; now apply Lowc). all: try exact Hi'. }
  assert (Gj : good j (columns q' j)) by (apply I1; lia).
  split.
  - intros k Hk. specialize (HN k 0 ltac:(lia)). destruct (neqb NumR aj (nofZ NumR 0)) eqn:Z.
    + cbn [neqb nofZ NumR] in Z. apply Reqb_true in Z. destruct HA as (HA & HD).
      assert (Hz : forall k, (j <= k < n)%nat -> low j (ent (nth k q [])) (ent (nth k q [])) = 0).
      { intros k' Hk'. pose proof (Mx k' Hk') as Q. rewrite (Nr k' Hk'), (Nr kk K), <- Eaj, Z in Q. pose proof (low_nonneg j (ent (nth k' q []))) as P0.
        apply sqrt_eq_0; [exact P0|]. pose proof (sqrt_pos (low j (ent (nth k' q [])) (ent (nth k' q [])))). lra. }
      assert (Tk : (j <= tr j kk k < n)%nat) by (split; [apply tr_high; lia|apply tr_lt; lia]).
      rewrite HN, (Nr _ Tk), (Hz _ Tk). rewrite HA. f_equal. symmetry. unfold low. apply rsum_zero. intros i Hi. destruct (Nat.ltb_spec i (S j)); [reflexivity|].
      rewrite (low_zero (Hz _ Tk)) by lia. ring.
    + destruct HN as (r2 & w2 & r3 & w3 & L2 & L2' & Eu & Hr2 & Hr3). rewrite Hr3. clear Hr3.
      assert (Tk : (j <= tr j kk k < n)%nat) by (split; [apply tr_high; lia|apply tr_lt; lia]).
      set (x' := ent (nth k q' [])). set (x := ent (nth (tr j kk k) q [])).
      assert (Xr : forall i, (i < m)%nat -> x' i = refl j (columns q' j) x i).
      { intros i Hi. pose proof (CurS i k Hi ltac:(lia)) as C. unfold cur at 1 in C. destruct (Nat.ltb_spec k (S j)); [lia|]. unfold x'. rewrite C.
        apply refl_ext; [exact Jm|reflexivity| |exact Hi]. intros i' Hi'. unfold cur. destruct (Nat.ltb_spec (tr j kk k) j); [lia|]. reflexivity. }
      assert (Lx : low j x' x' = low j x x) by (rewrite (@low_ext j _ _ _ _ Xr Xr); apply refl_low; [lia|exact Gj]).
      assert (Rk : nth k r2 0 = sqrt (low j x' x')) by (rewrite Hr2, Lx; apply Nr; exact Tk).
      pose proof (low_nonneg (S j) x') as P1. pose proof (low_nonneg j x') as P0. pose proof (@low_split j x' x' Jm) as Sp.
      assert (Lc : length (nth k q' []) = m) by (eapply shape_col; eauto; lia).
      unfold update_norm in Eu. rewrite (@get_nth _ 0 r2 k) in Eu by lia. cbn [bind neqb nofZ NumR] in Eu.
      destruct (Reqb (nth k r2 0) 0) eqn:Zk.
      * apply Ok_inj in Eu. injection Eu as <- <-. apply Reqb_true in Zk. rewrite Zk. rewrite Rk in Zk. apply sqrt_eq_0 in Zk; [|exact P0].
        assert (low (S j) x' x' = 0) as -> by nra. now rewrite sqrt_0.
      * apply Reqb_false in Zk. rewrite (@get_nth _ 0 (nth k q' []) j) in Eu by lia. cbn [bind] in Eu. cbv zeta in Eu. rewrite (@get_nth _ 0 w2 k) in Eu by lia. cbn [bind] in Eu.
        match type of Eu with context [if ?b then _ else _] => destruct b end.
        -- rewrite sub_ok in Eu by lia. cbn [bind] in Eu. rewrite set_lt in Eu by lia. cbn [bind] in Eu. rewrite set_lt in Eu by lia. cbn [bind] in Eu. apply Ok_inj in Eu. injection Eu as <- <-.
           rewrite nth_upd, Nat.eqb_refl. assert (k <? length r2 = true)%nat as -> by (apply Nat.ltb_lt; lia). cbn [andb].
           apply (Hnorm (S j) q' ipvt' rdiag' k); try assumption; lia.
        -- rewrite set_lt in Eu by lia. cbn [bind] in Eu. apply Ok_inj in Eu. injection Eu as <- <-.
           rewrite nth_upd, Nat.eqb_refl. assert (k <? length r2 = true)%nat as -> by (apply Nat.ltb_lt; lia). cbn [andb].
           cbn [nmul ndiv nsub nsqrt nofZ NumR]. fold (ent (nth k q' []) j). fold x'. set (rk := nth k r2 0) in *.
           assert (Rk2 : rk * rk = low j x' x') by (rewrite Rk; now apply sqrt_sqrt). assert (Pk : 0 < rk) by (pose proof (sqrt_pos (low j x' x')); lra).
           assert (Td : 1 - x' j / rk * (x' j / rk) = low (S j) x' x' / (rk * rk)) by (replace (low (S j) x' x') with (rk * rk - x' j * x' j) by lra; field; lra).
           rewrite Td. assert (Pd : 0 <= low (S j) x' x' / (rk * rk)) by (apply Rmult_le_pos; [exact P1|]; apply Rlt_le, Rinv_0_lt_compat; nra).
           unfold dmax1. cbn [nleb NumR]. assert (sqrt (rk * rk) = rk) as Q by (apply sqrt_square; lra).
           assert (F : rk * sqrt (low (S j) x' x' / (rk * rk)) = sqrt (low (S j) x' x')).
           { rewrite <- Q at 1. rewrite <- sqrt_mult; [|nra|exact Pd]. f_equal. field. lra. }
           destruct (Rleb (low (S j) x' x' / (rk * rk)) 0) eqn:Q2; [|exact F]. apply Rleb_true in Q2. assert (low (S j) x' x' / (rk * rk) = 0) as Q3 by lra. rewrite Q3 in F. exact F.
  - intros p b Hp Hb.
    rewrite (@low_ext p _ _ (refl j (columns q' j) (fun i => cur j q rdiag i (tr j kk b))) (refl j (columns q' j) (fun i => cur j q rdiag i (tr j kk b)))) by (intros i Hi; apply CurS; lia).
    rewrite refl_low by (try exact Gj; lia). destruct (Nat.eq_dec p j) as [->|Np].
    + assert (Tk : (j <= tr j kk b < n)%nat) by (split; [apply tr_high; lia|apply tr_lt; lia]).
      assert (Rj : nth j rdiag' 0 * nth j rdiag' 0 = aj * aj).
      { destruct (neqb NumR aj (nofZ NumR 0)) eqn:Z.
        - destruct HA as (_ & HD). rewrite HD. cbn [nneg NumR]. ring.
        - destruct HA as (HD & _). rewrite HD. cbn [nneg NumR nltb nofZ]. destruct (Rltb _ _); ring. }
      rewrite Rj, Eaj, sqrt_sqrt by apply low_nonneg.
      rewrite (@low_ext j _ _ (ent (nth (tr j kk b) q [])) (ent (nth (tr j kk b) q []))) by (intros i Hi; unfold cur; destruct (Nat.ltb_spec (tr j kk b) j); [lia|reflexivity]).
      pose proof (Mx _ Tk) as Q. rewrite (Nr _ Tk), (Nr kk K) in Q. apply sqrt_le_0; [apply low_nonneg|apply low_nonneg|exact Q].
    + rewrite (HR p 0) by lia. apply Zr; [lia|]. split; [|apply Tb; lia]. unfold tr. destruct (Nat.eqb_spec b j); [lia|]. destruct (Nat.eqb_spec b kk); lia.
Qed.

Lemma qrfac_pivoted q ipvt rdiag acnorm : (n <= m)%nat -> qrfac NumR enorm m n a0 = Ok (q, ipvt, rdiag, acnorm) ->
  forall p b, (p < n)%nat -> (p <= b < n)%nat -> low p (fun i => upper q rdiag i b) (fun i => upper q rdiag i b) <= nth p rdiag 0 * nth p rdiag 0.
Proof.
  intros NM E. pose proof E as E0. unfold qrfac in E. destruct (acnorm_ok enorm S0) as (ac & Eac & Lac & Pac). rewrite Eac in E. cbn [bind] in E.
  apply bind_Ok in E. destruct E as ([[[q1 i1] r1] w1] & E & E2). apply Ok_inj in E2. injection E2 as -> -> -> ->.
  assert (H := fun A B => @for_ok (matrix R * list nat * list R * list R) (fun j '(q, ip, rd, wa) => shape m n q /\ Permutation (seq 0 n) ip /\ length rd = n /\ length wa = n /\ qinv j q ip rd /\ ninv j q rd)
    (qrfac_step NumR enorm m n) (Nat.min m n) (a0, seq 0 n, acnorm, acnorm) (q, ipvt, rdiag, w1) A B E). cbv beta iota in H.
  destruct H as (_ & _ & _ & _ & _ & (_ & Z)).
  - split; [exact S0|]. split; [apply Permutation_refl|]. split; [exact Lac|]. split; [exact Lac|]. split; [split; [intros; lia|]|].
    + intros k i Hk Hi. cbn [applyQ]. rewrite seq_nth by assumption. reflexivity.
    + split; [|intros; lia]. intros k Hk. rewrite Pac by lia. assert (Lc : length (nth k a0 []) = m) by (eapply shape_col; eauto; lia).
      pose proof (@sumsq_low 0 (nth k a0 []) Lc ltac:(lia)) as Q. rewrite Nat.sub_0_r in Q. cbn [skipn] in Q. rewrite firstn_all2 in Q by lia.
      rewrite Hen; [now rewrite Q|lia|]. apply Forall_forall. intros x Hx. apply In_nth with (d := 0) in Hx. destruct Hx as (i & Hi & <-).
      pose proof (@ip_ge i (ent (nth k a0 [])) ltac:(lia)) as Q1. pose proof (B0 (k := k) ltac:(lia)) as Q2. unfold inner in Q2. unfold ip, ent in Q1. apply Rabs_def1; nra.
  - intros j [[[q2 i2] r2] w2] [[[q3 i3] r3] w3] Hj (S2 & P2 & L2 & W2 & V2 & N2) E1.
    assert (Li : length i2 = n) by (rewrite <- (Permutation_length P2), seq_length; reflexivity).
    destruct (@qrfac_step_ok R NumR enorm m n q2 i2 r2 w2 j) as (q' & i' & r' & w' & E' & S' & P' & L' & W' & _); try assumption; try lia.
    pose proof E1 as E1'. rewrite E' in E1'. apply Ok_inj in E1'. injection E1' as -> -> -> ->.
    split; [exact S'|]. split; [eapply Permutation_trans; eauto|]. split; [exact L'|]. split; [exact W'|].
    assert (Hm : (j < m)%nat) by lia. assert (Hn : (j < n)%nat) by lia. split.
    + exact (qinv_step Hm Hn S2 P2 L2 W2 V2 E1).
    + exact (ninv_step Hm Hn S2 P2 L2 W2 V2 N2 E1).
  - replace (Nat.min m n) with n in * by lia. intros p b Hp Hb. pose proof (Z p b Hp Hb) as Q. unfold cur in Q. destruct (Nat.ltb_spec b n); [exact Q|lia].
Qed.

(** ---- Q^T applied to the deviates ---- *)
Lemma applyQ_row k cols x i : (i < k)%nat -> forall l, (k <= l)%nat -> applyQ l cols x i = applyQ k cols x i.
Proof.
  intros Hi l Hl. induction l as [|l IH]; [replace k with 0%nat by lia; reflexivity|].
  destruct (Nat.eq_dec k (S l)) as [->|]; [reflexivity|]. cbn [applyQ]. unfold refl at 1. destruct (Req_EM_T _ _); [apply IH; lia|].
  assert (i <? l = true)%nat as -> by (apply Nat.ltb_lt; lia). apply IH; lia.
Qed.

Lemma apply_qt_ok q rdiag f : (n <= m)%nat -> shape m n q -> length rdiag = n -> length f = m ->
  exists r qtf, apply_qt NumR m n q rdiag f = Ok (r, qtf) /\ shape m n r /\ length qtf = n /\
    (forall k i, (k < n)%nat -> (i <= k)%nat -> nth i (nth k r []) 0 = upper q rdiag i k) /\
    (forall i, (i < n)%nat -> nth i qtf 0 = applyQ n (columns q) (ent f) i).
Proof.
  intros NM Sq Lr Lf. unfold apply_qt.
  match goal with |- context [for_ n ?body ?s0] =>
    destruct (@for_inv (list (list R) * list R * list R) (fun j '(r, w, qtf) => shape m n r /\ length w = m /\ length qtf = j /\
      (forall k i, (k < n)%nat -> (i <= k)%nat -> nth i (nth k r []) 0 = if (k <? j)%nat then upper q rdiag i k else nth i (nth k q []) 0) /\
      (forall k, (j <= k)%nat -> nth k r [] = nth k q []) /\
      (forall i, (i < m)%nat -> ent w i = applyQ j (columns q) (ent f) i) /\
      (forall i, (i < j)%nat -> nth i qtf 0 = applyQ j (columns q) (ent f) i)) body n s0) as ([[r w] qtf] & E & Sr & Lw & Lq & R1 & R2 & W & Qf) end.
  - split; [exact Sq|]. split; [exact Lf|]. split; [reflexivity|]. split; [reflexivity|]. split; [reflexivity|]. split; [reflexivity|]. intros; lia.
  - intros j [[r w] qtf] Hj (Sr & Lw & Lq & R1 & R2 & W & Qf). pose proof (proj1 Sr) as La.
    rewrite (@get_nth _ [] r j) by lia. cbn [bind]. rewrite (R2 j) by lia. set (c := nth j q []). assert (Lc : length c = m) by (eapply shape_col; eauto).
    rewrite (@get_nth _ 0 c j) by lia. cbn [bind].
    match goal with |- context [bind (if ?b then ?x else ?y) ?k] => assert (HW : exists w', (if b then x else y) = Ok w' /\ length w' = m /\
      forall i, (i < m)%nat -> ent w' i = applyQ (S j) (columns q) (ent f) i) end.
    { cbn [neqb nofZ NumR]. destruct (Reqb (nth j c 0) 0) eqn:Z.
      - apply Reqb_true in Z. exists w. split; [reflexivity|]. split; [exact Lw|]. intros i Hi. cbn [applyQ]. unfold refl.
        destruct (Req_EM_T (columns q j j) 0) as [_|Nz]; [now apply W|]. exfalso. apply Nz. exact Z.
      - apply Reqb_false in Z. rewrite dot_exact by lia. cbn [bind]. cbv zeta.
        set (t := ndiv NumR (nneg NumR (low j (ent c) (ent w))) (nth j c 0)).
        rewrite (@for_from_ext _ _ (fun i w => do a <- get w i; set w i (nadd NumR a (nmul NumR (nth i c 0) t)))).
        2:{ intros i w' Hi. destruct (get w' i); cbn [bind]; try reflexivity. rewrite (@get_nth _ 0 c i) by lia. reflexivity. }
        destruct (@modify_range R (fun i a => nadd NumR a (nmul NumR (nth i c 0) t)) j (m - j) w) as (w' & -> & L' & P); [lia|].
        exists w'. split; [reflexivity|]. split; [lia|]. intros i Hi. cbn [applyQ].
        rewrite <- (@refl_ext j (ent c) (columns q j) (ent w) _ ltac:(lia) (fun _ _ => eq_refl) W i Hi).
        unfold refl. destruct (Req_EM_T (ent c j) 0) as [Ez|_]; [contradiction|]. unfold ent at 1. rewrite P by lia.
        destruct (Nat.ltb_spec i j).
        + assert (j <=? i = false)%nat as -> by (apply Nat.leb_gt; lia). reflexivity.
        + assert (j <=? i = true)%nat as -> by (apply Nat.leb_le; lia). assert (i <? j + (m - j) = true)%nat as -> by (apply Nat.ltb_lt; lia).
          cbn [andb]. unfold t. cbn [nadd nmul ndiv nneg NumR]. unfold ent. field. exact Z. }
    destruct HW as (w' & -> & Lw' & W'). cbn [bind]. rewrite (@get_nth _ 0 rdiag j) by lia. cbn [bind].
    unfold set2. rewrite (@get_nth _ [] r j) by lia. cbn [bind]. rewrite (R2 j) by lia. fold c. rewrite set_lt by lia. cbn [bind]. rewrite set_lt by lia. cbn [bind].
    rewrite (@get_nth _ 0 w' j) by lia. cbn [bind]. eexists; split; [reflexivity|].
    split; [apply shape_upd; [exact Sr|rewrite upd_length; exact Lc]|]. split; [exact Lw'|]. split; [rewrite app_length; cbn; lia|].
    split; [|split; [|split]].
    + intros k i Hk Hi. rewrite nth_upd. assert (j <? length r = true)%nat as -> by (apply Nat.ltb_lt; lia). rewrite andb_true_r.
      destruct (Nat.eqb_spec j k) as [<-|Ne].
      * rewrite nth_upd, Lc. assert (j <? m = true)%nat as -> by (apply Nat.ltb_lt; lia). rewrite andb_true_r.
        assert (j <? S j = true)%nat as -> by (apply Nat.ltb_lt; lia). unfold upper. fold c.
        destruct (Nat.eqb_spec j i) as [<-|]; [now rewrite Nat.ltb_irrefl, Nat.eqb_refl|]. assert (i <? j = true)%nat as -> by (apply Nat.ltb_lt; lia). reflexivity.
      * rewrite R1 by assumption. destruct (Nat.ltb_spec k j), (Nat.ltb_spec k (S j)); try lia; reflexivity.
    + intros k Hk. rewrite nth_upd. destruct (Nat.eqb_spec j k); [lia|]. apply R2. lia.
    + exact W'.
    + intros i Hi. destruct (Nat.eq_dec i j) as [->|].
      * rewrite app_nth2 by lia. rewrite Lq, Nat.sub_diag. cbn [nth]. fold (ent w' j). apply W'. lia.
      * rewrite app_nth1 by lia. rewrite Qf by lia. symmetry. apply (@applyQ_row j); lia.
  - rewrite E. cbn [bind]. exists r, qtf. split; [reflexivity|]. split; [exact Sr|]. split; [exact Lq|]. split; [|exact Qf].
    intros k i Hk Hi. rewrite R1 by assumption. assert (k <? n = true)%nat as -> by (now apply Nat.ltb_lt). reflexivity.
Qed.

Lemma qt_gradient q ipvt rdiag acnorm f : (n <= m)%nat -> length f = m -> qrfac NumR enorm m n a0 = Ok (q, ipvt, rdiag, acnorm) ->
  exists r qtf, apply_qt NumR m n q rdiag f = Ok (r, qtf) /\ shape m n r /\ length qtf = n /\
    (forall k i, (k < n)%nat -> (i <= k)%nat -> nth i (nth k r []) 0 = upper q rdiag i k) /\
    (forall k, (k < n)%nat -> rsum (S k) (fun i => nth i (nth k r []) 0 * nth i qtf 0) = inner m (nth (nth k ipvt 0%nat) a0 []) f).
Proof.
  intros NM Lf E. destruct (qrfac_exact E) as (Sq & Pp & Lr & Q). 
  destruct (apply_qt_ok NM Sq Lr Lf) as (r & qtf & Ea & Sr & Lq & R1 & Qf). exists r, qtf.
  split; [exact Ea|]. split; [exact Sr|]. split; [exact Lq|]. split; [exact R1|]. intros k Hk.
  assert (Mn : Nat.min m n = n) by lia. rewrite Mn in Q.
  transitivity (ip (applyQ n (columns q) (orig (nth k ipvt 0%nat))) (applyQ n (columns q) (ent f))).
  - unfold ip. transitivity (rsum (S k + (m - S k)) (fun i => applyQ n (columns q) (orig (nth k ipvt 0%nat)) i * applyQ n (columns q) (ent f) i)); [|f_equal; lia]. rewrite rsum_app. rewrite (@rsum_zero (m - S k)).
    + rewrite Rplus_0_r. apply rsum_ext. intros i Hi. rewrite R1, Qf by lia. pose proof (@upper_Q q ipvt rdiag) as U. rewrite Mn in U. rewrite U by (try assumption; lia). reflexivity.
    + intros i Hi. pose proof (@upper_Q q ipvt rdiag) as U. rewrite Mn in U. rewrite U by (try assumption; lia). unfold upper.
      destruct (Nat.ltb_spec (S k + i) k); [lia|]. destruct (Nat.eqb_spec (S k + i) k); [lia|]. ring.
  - rewrite applyQ_iso by apply Q. reflexivity.
Qed.
End Q.
