From Coq Require Import ZArith List Bool Arith Lia Permutation.
From Verif Require Import Base Num Params_Model Conv_Model Downsample_Model Image_Model Par_Model Par_Spec.
Import ListNotations.
Set Implicit Arguments.
Unset Strict Implicit.

Section General.
Variable T : Type.
Notation mem := (mem T). Notation prog := (prog T). Notation config := (config T).
Definition Tot := Shared VtotalComponentFlux.

(** the run of one thread alone *)
Fixpoint final (m : mem) (p : prog) : mem :=
  match p with
  | Stop | Bad => m
  | Read l k => final m (k (m l))
  | Write l v p => final (put m l v) p
  | Atomic l f p => final (put m l (f (m l))) p
  end.
Fixpoint steps (m : mem) (p : prog) : nat :=
  match p with
  | Stop | Bad => 0
  | Read l k => S (steps m (k (m l)))
  | Write l v p => S (steps (put m l v) p)
  | Atomic l f p => S (steps (put m l (f (m l))) p)
  end.
Fixpoint updates (m : mem) (p : prog) : list (value T -> value T) :=
  match p with
  | Stop | Bad => []
  | Read l k => updates m (k (m l))
  | Write l v p => updates (put m l v) p
  | Atomic l f p => f :: updates (put m l (f (m l))) p
  end.
(** it accesses only locations in [O], and [Tot] by updates *)
Fixpoint safe (O : loc -> Prop) (m : mem) (p : prog) : Prop :=
  match p with
  | Stop => True
  | Bad => False
  | Read l k => O l /\ m l <> Garbage /\ safe O m (k (m l))
  | Write l v p => O l /\ safe O (put m l v) p
  | Atomic l f p => l = Tot /\ safe O (put m l (f (m l))) p
  end.
Definition agree (O : loc -> Prop) (m m' : mem) : Prop := forall l, O l -> m l = m' l.
Lemma put_same (m : mem) l v : put m l v l = v.
Proof. unfold put. destruct (loc_eq_dec l l); [reflexivity|contradiction]. Qed.
Lemma put_other (m : mem) l v l' : l <> l' -> put m l v l' = m l'.
Proof. intros H. unfold put. destruct (loc_eq_dec l l'); [contradiction|reflexivity]. Qed.
Lemma agree_put O m m' l v : agree O m m' -> agree O (put m l v) (put m' l v).
Proof. intros H x Hx. unfold put. destruct (loc_eq_dec l x); [reflexivity|exact (H x Hx)]. Qed.
Lemma agree_put1 (O : loc -> Prop) m m' l v : ~ O l -> agree O m m' -> agree O (put m l v) m'.
Proof. intros N H x Hx. rewrite put_other by (intros ->; contradiction). exact (H x Hx). Qed.
Lemma agree_put2 (O : loc -> Prop) m m' l v w : ~ O l -> agree O m m' -> agree O (put m l v) (put m' l w).
Proof. intros N H x Hx. rewrite !put_other by (intros ->; contradiction). exact (H x Hx). Qed.

Lemma safe_agree (O : loc -> Prop) p : ~ O Tot -> forall m m', agree O m m' -> safe O m p ->
  safe O m' p /\ agree O (final m p) (final m' p) /\ steps m p = steps m' p /\ updates m p = updates m' p.
Proof.
  intros NT. induction p as [| |l k IH|l v p IH|l f p IH]; intros m m' A Sp; cbn in *.
  - auto.
  - contradiction.
  - destruct Sp as (Ol & G & Sp). rewrite <- (A l Ol). destruct (IH _ _ _ A Sp) as (S' & F' & St & U). repeat split; auto.
  - destruct Sp as (Ol & Sp). destruct (IH _ _ (@agree_put O m m' l v A) Sp) as (S' & F' & St & U). repeat split; auto.
  - destruct Sp as (-> & Sp). destruct (IH _ _ (@agree_put2 O m m' Tot (f (m Tot)) (f (m' Tot)) NT A) Sp) as (S' & F' & St & U). repeat split; auto. f_equal. exact U.
Qed.

Lemma upd_nth_same {A} (l : list A) : forall t x y, nth_error l t = Some y -> nth_error (upd l t x) t = Some x.
Proof. induction l as [|a l IH]; intros [|t] x y H; try discriminate H; [reflexivity|exact (IH t x y H)]. Qed.
Lemma upd_nth_other {A} (l : list A) : forall t u x, t <> u -> nth_error (upd l t x) u = nth_error l u.
Proof. induction l as [|a l IH]; intros [|t] [|u] x H; try reflexivity; try congruence. apply (IH t u x). congruence. Qed.
Lemma sum_upd {A} (g g' : A -> nat) (l : list A) : forall t p p', nth_error l t = Some p ->
  (forall u q, u <> t -> nth_error l u = Some q -> g' q = g q) ->
  list_sum (map g' (upd l t p')) + g p = list_sum (map g l) + g' p'.
Proof.
  induction l as [|a l IH]; intros [|t] p p' H E; try discriminate H.
  - injection H as ->. cbn. rewrite (@map_ext_in A nat g' g l); [lia|]. intros q Hq. apply In_nth_error in Hq. destruct Hq as (u & Hu). apply (E (S u) q); [congruence|exact Hu].
  - cbn. specialize (IH t p p' H (fun u q D Q => E (S u) q ltac:(congruence) Q)). unfold list_sum in IH. pose proof (E 0 a ltac:(congruence) eq_refl). lia.
Qed.
Lemma concat_upd {A B} (g g' : A -> list B) (l : list A) : forall t p p', nth_error l t = Some p ->
  (forall u q, u <> t -> nth_error l u = Some q -> g' q = g q) ->
  Permutation (concat (map g' (upd l t p')) ++ g p) (concat (map g l) ++ g' p').
Proof.
  induction l as [|a l IH]; intros [|t] p p' H E; try discriminate H.
  - injection H as ->. cbn. rewrite (@map_ext_in A _ g' g l).
    + rewrite <- !app_assoc. rewrite (Permutation_app_comm (concat (map g l)) (g p)). rewrite (Permutation_app_comm (concat (map g l)) (g' p')).
      rewrite !app_assoc. apply Permutation_app_tail. apply Permutation_app_comm.
    + intros q Hq. apply In_nth_error in Hq. destruct Hq as (u & Hu). apply (E (S u) q); [congruence|exact Hu].
  - cbn. specialize (IH t p p' H (fun u q D Q => E (S u) q ltac:(congruence) Q)). rewrite (E 0 a ltac:(congruence) eq_refl). rewrite <- !app_assoc. apply Permutation_app_head. exact IH.
Qed.

Variable Os : nat -> loc -> Prop.
Hypothesis Os_apart : forall t u l, t <> u -> Os t l -> ~ Os u l.
Hypothesis Os_tot : forall t, ~ Os t Tot.
Variable c0 : config.
Hypothesis safe0 : forall t p, nth_error (snd c0) t = Some p -> safe (Os t) (fst c0) p.
Definition apply_all (fs : list (value T -> value T)) (v : value T) : value T := fold_left (fun v f => f v) fs v.
Definition Inv (n : nat) (c : config) : Prop :=
  length (snd c) = length (snd c0) /\
  (forall t p, nth_error (snd c) t = Some p -> exists p0, nth_error (snd c0) t = Some p0 /\ safe (Os t) (fst c) p /\ agree (Os t) (final (fst c) p) (final (fst c0) p0)) /\
  n + list_sum (map (steps (fst c)) (snd c)) = list_sum (map (steps (fst c0)) (snd c0)) /\
  (exists done, fst c Tot = apply_all done (fst c0 Tot) /\ Permutation (done ++ concat (map (updates (fst c)) (snd c))) (concat (map (updates (fst c0)) (snd c0)))).
Lemma Inv0 : Inv 0 c0.
Proof.
  split; [reflexivity|]. split; [|split; [reflexivity|exists []; split; reflexivity]].
  intros t p H. exists p. split; [exact H|]. split; [exact (safe0 H)|]. intros l Hl. reflexivity.
Qed.
(** a step of thread t changes memory only inside its own locations or Tot *)
Lemma Inv_step n c t c' : Inv n c -> step c t = Some c' -> Inv (S n) c'.
Proof.
  intros (Hlen & Ht & Hs & done & Hd & Hp) E. destruct c as [m ps]. cbn [fst snd] in *. unfold step in E. cbn [fst snd] in E.
  destruct (nth_error ps t) as [p|] eqn:Q; [|discriminate E].
  destruct (Ht t p Q) as (p0 & Q0 & Sp & Ag).
  assert (K : forall m' p' fs, (forall l, ~ Os t l -> l <> Tot -> m l = m' l) -> safe (Os t) m' p' -> agree (Os t) (final m' p') (final m p) ->
     steps m p = S (steps m' p') -> updates m p = fs ++ updates m' p' -> m' Tot = apply_all fs (m Tot) -> Inv (S n) (m', upd ps t p')).
  { intros m' p' fs Hm S' F' St U V.
    assert (R : forall u q, u <> t -> nth_error ps u = Some q -> safe (Os u) m' q /\ agree (Os u) (final m q) (final m' q) /\ steps m q = steps m' q /\ updates m q = updates m' q).
    { intros u q Du Hu. destruct (Ht u q Hu) as (q0 & _ & Sq & _). apply (@safe_agree (Os u) q (@Os_tot u) m m'); [|exact Sq].
      intros l Hl. apply Hm; [exact (@Os_apart u t l Du Hl)|intros ->; exact (@Os_tot u Hl)]. }
    split; [cbn [snd]; rewrite upd_length; exact Hlen|]. cbn [fst snd]. split; [|split].
    - intros u q Hq. destruct (Nat.eq_dec u t) as [->|Du].
      + rewrite (upd_nth_same p' Q) in Hq. injection Hq as <-. exists p0. split; [exact Q0|]. split; [exact S'|]. intros l Hl. rewrite (F' l Hl). exact (Ag l Hl).
      + rewrite upd_nth_other in Hq by congruence. destruct (Ht u q Hq) as (q0 & Hq0 & _ & Aq). destruct (R u q Du Hq) as (Sq & Fq & _ & _).
        exists q0. split; [exact Hq0|]. split; [exact Sq|]. intros l Hl. rewrite <- (Fq l Hl). exact (Aq l Hl).
    - pose proof (@sum_upd _ (steps m) (steps m') ps t p p' Q (fun u q D H => eq_sym (proj1 (proj2 (proj2 (R u q D H)))))) as X. lia.
    - exists (done ++ fs). split; [unfold apply_all in *; rewrite fold_left_app, <- Hd; exact V|].
      pose proof (@concat_upd _ _ (updates m) (updates m') ps t p p' Q (fun u q D H => eq_sym (proj2 (proj2 (proj2 (R u q D H)))))) as X.
      rewrite U in X. rewrite (app_assoc _ fs) in X. apply Permutation_app_inv_r in X. rewrite <- app_assoc, (Permutation_app_comm fs), X. exact Hp. }
  destruct p as [| |l k|l v p|l f p]; try discriminate E; injection E as <-.
  - destruct Sp as (Ol & G & Sp). assert (Z : is_garbage (m l) = false) by (destruct (m l); [contradiction|reflexivity..]). rewrite Z.
    apply (K m (k (m l)) []); auto; intros ? ?; reflexivity.
  - destruct Sp as (Ol & Sp). apply (K (put m l v) p []); [|exact Sp|intros x Hx; reflexivity|reflexivity|reflexivity|].
    + intros x N1 N2. symmetry. apply put_other. intros ->. contradiction.
    + apply put_other. intros ->. exact (Os_tot Ol).
  - destruct Sp as (-> & Sp). apply (K (put m Tot (f (m Tot))) p [f]); [|exact Sp|intros x Hx; reflexivity|reflexivity|reflexivity|].
    + intros x N1 N2. symmetry. apply put_other. congruence.
    + reflexivity.
Qed.
Lemma Inv_exec sched : forall n c c', Inv n c -> exec sched c = Some c' -> Inv (n + length sched) c'.
Proof.
  induction sched as [|t sched IH]; intros n c c' I E; cbn in E.
  - injection E as <-. rewrite Nat.add_0_r. exact I.
  - destruct (step c t) as [c1|] eqn:Q; [|discriminate E]. cbn [length]. rewrite <- plus_n_Sm. exact (IH (S n) c1 c' (Inv_step I Q) E).
Qed.
Lemma ends (P : mem -> Prop) :
  (forall m fs, (forall t p0, nth_error (snd c0) t = Some p0 -> agree (Os t) m (final (fst c0) p0)) ->
     m Tot = apply_all fs (fst c0 Tot) -> Permutation fs (concat (map (updates (fst c0)) (snd c0))) -> P m) ->
  always_ends c0 P.
Proof.
  intros HP. exists (list_sum (map (steps (fst c0)) (snd c0))). intros sched c E.
  destruct (Inv_exec Inv0 E) as (Hlen & Ht & Hs & done & Hd & Hp). split; [|split; [|split; [|split]]].
  - intros (t & u & p & q & l & a & b & D & Hp1 & Hq & Ap & Aq & C).
    destruct (Ht _ _ Hp1) as (_ & _ & Sp & _). destruct (Ht _ _ Hq) as (_ & _ & Sq & _).
    assert (X : forall t p l a, safe (Os t) (fst c) p -> next_access p = Some (l, a) -> Os t l /\ a <> Updating \/ l = Tot /\ a = Updating).
    { intros t' p' l' a' S' N'. destruct p'; try discriminate N'; injection N' as <- <-; cbn in S'; [left|left|right]; split; try discriminate; try reflexivity; apply S'. }
    destruct (X _ _ _ _ Sp Ap) as [(O1 & _)|(-> & ->)]; destruct (X _ _ _ _ Sq Aq) as [(O2 & _)|(L2 & B2)].
    + exact (Os_apart D O1 O2).
    + subst l. exact (Os_tot O1).
    + exact (Os_tot O2).
    + subst b. exact C.
  - intros B. apply In_nth_error in B. destruct B as (t & B). destruct (Ht _ _ B) as (_ & _ & Sp & _). exact Sp.
  - lia.
  - intros F. apply (HP (fst c) done).
    + intros t p0 Hp0. assert (L : t < length (snd c)). { rewrite Hlen. apply nth_error_Some. congruence. }
      apply nth_error_Some in L. destruct (nth_error (snd c) t) as [p|] eqn:Q; [|contradiction]. destruct (Ht _ _ Q) as (p1 & Q1 & _ & A).
      rewrite Hp0 in Q1. injection Q1 as <-. rewrite (F p (nth_error_In _ _ Q)) in A. exact A.
    + exact Hd.
    + rewrite <- Hp. assert (Z : concat (map (updates (fst c)) (snd c)) = []).
      { clear - F. unfold finished in F. induction (snd c) as [|p ps IH]; [reflexivity|]. cbn. rewrite (F p (or_introl eq_refl)). apply IH. intros q Hq. apply F. right. exact Hq. }
      rewrite Z, app_nil_r. reflexivity.
  - intros NF. assert (X : Exists (fun p => p <> Stop) (snd c)).
    { clear - NF. unfold finished in NF. induction (snd c) as [|p ps IH]; [exfalso; apply NF; intros ? []|].
      assert (D : p = Stop \/ p <> Stop) by (destruct p; [left; reflexivity|right; discriminate..]). destruct D as [->|D]; [|left; exact D].
      right. apply IH. intros H. apply NF. intros q [<-|Hq]; [reflexivity|exact (H q Hq)]. }
    apply Exists_exists in X. destruct X as (p & Ip & Np). apply In_nth_error in Ip. destruct Ip as (t & Q). exists t. unfold step. rewrite Q.
    destruct (Ht _ _ Q) as (_ & _ & Sp & _). destruct p; try discriminate; [contradiction|contradiction].
Qed.
End General.

(** ---- what one thread computes ---- *)
Section Solo.
Variable T : Type.
Variable N : Num T.
Notation mem := (mem T). Notation prog := (prog T).

(** [p] is equivalent to [q] run from [m'] *)
Definition same_run (O : loc -> Prop) (m : mem) (p : prog) (m' : mem) (q : prog) : Prop :=
  final m p = final m' q /\ updates m p = updates m' q /\ (safe O m' q -> safe O m p).
Lemma same_refl O m p : same_run O m p m p.
Proof. repeat split; auto. Qed.
Lemma same_trans O m p m1 p1 m2 p2 : same_run O m p m1 p1 -> same_run O m1 p1 m2 p2 -> same_run O m p m2 p2.
Proof. intros (A & B & C) (A' & B' & C'). split; [congruence|]. split; [congruence|auto]. Qed.
Lemma same_write (O : loc -> Prop) m l v p : O l -> same_run O m (Write l v p) (put m l v) p.
Proof. intros H. repeat split; cbn; auto. Qed.
Lemma same_real (O : loc -> Prop) m l r k : O l -> m l = Real r -> same_run O m (read_real l k) m (k r).
Proof. intros H E. unfold same_run, read_real. cbn. rewrite E. repeat split; auto. discriminate. Qed.
Lemma same_int (O : loc -> Prop) m l z k : O l -> m l = Int z -> same_run O m (read_int l k) m (k z).
Proof. intros H E. unfold same_run, read_int. cbn. rewrite E. repeat split; auto. discriminate. Qed.

Variable t : nat.
Variable O : loc -> Prop.
Hypothesis Opriv : forall v, O (Private t v).
(** what the iterations may change besides private variables *)
Definition only_private (m m' : mem) : Prop := forall l, (forall v, l <> Private t v) -> m' l = m l.

Ltac pm := repeat (first [rewrite put_same | rewrite put_other by discriminate]); try assumption; try reflexivity.

Notation pv := (Private t).
Definition kstep (sel : bool) (x y : T) (p : T * T) (f : fobj T) : T * T :=
  if Bool.eqb (fo_point f) sel then
    let adjVal := nsub N (fo_value f x y) (snd p) in
    let tempSum := nadd N (fst p) adjVal in
    (tempSum, nsub N (nsub N tempSum (fst p)) adjVal)
  else p.
Lemma kahan_sum_fold fs sel x y : kahan_sum N fs sel x y = fst (fold_left (kstep sel x y) fs (nofZ N 0, nofZ N 0)).
Proof.
  unfold kahan_sum. f_equal. generalize (nofZ N 0, nofZ N 0). induction fs as [|f fs IH]; intros [s e]; [reflexivity|]. cbn [fold_left].
  rewrite <- IH. unfold kstep. cbn [fst snd]. reflexivity.
Qed.

Lemma kahan_run (fs : list (fobj T)) sel after x y : forall fuel n m s e,
  n <= length fs -> length fs < n + fuel ->
  m (pv Vn) = Int (Z.of_nat n) -> m (pv Vx) = Real x -> m (pv Vy) = Real y -> m (pv VnewValSum) = Real s -> m (pv VstoredError) = Real e ->
  exists m', same_run O m (kahan_loop N private_pixels t (map pure fs) sel fuel after) m' after /\
    m' (pv VnewValSum) = Real (fst (fold_left (kstep sel x y) (skipn n fs) (s, e))) /\
    m' (pv Vi) = m (pv Vi) /\ m' (pv Vj) = m (pv Vj) /\ only_private m m'.
Proof.
  induction fuel as [|fuel IH]; intros n m s e Hn Hf Mn Mx My Ms Me; [lia|].
  cbn [kahan_loop]. change (addr private_pixels t Vn) with (pv Vn). change (addr private_pixels t Vx) with (pv Vx). change (addr private_pixels t Vy) with (pv Vy).
  change (addr private_pixels t VstoredError) with (pv VstoredError). change (addr private_pixels t VnewValSum) with (pv VnewValSum).
  change (addr private_pixels t VtempSum) with (pv VtempSum). change (addr private_pixels t VadjVal) with (pv VadjVal).
  destruct (Nat.eq_dec n (length fs)) as [->|D].
  - exists m. rewrite skipn_all. cbn [fold_left fst]. split; [|repeat split; auto; intros l _; reflexivity].
    eapply same_trans; [apply same_int; [apply Opriv|exact Mn]|]. rewrite map_length, Z.ltb_irrefl. apply same_refl.
  - assert (L : n < length fs) by lia. destruct (nth_error fs n) as [f|] eqn:Q; [|apply nth_error_None in Q; lia].
    assert (Sk : skipn n fs = f :: skipn (S n) fs). { clear - Q. revert n Q. induction fs as [|a fs IH]; intros [|n] Q; try discriminate Q; [injection Q as ->; reflexivity|exact (IH n Q)]. }
    assert (NX : forall m1 s1 e1, m1 (pv Vn) = Int (Z.of_nat n) -> m1 (pv Vx) = Real x -> m1 (pv Vy) = Real y -> m1 (pv VnewValSum) = Real s1 -> m1 (pv VstoredError) = Real e1 ->
      exists m', same_run O m1 (read_int (pv Vn) (fun n => Write (pv Vn) (Int (n + 1)) (kahan_loop N private_pixels t (map pure fs) sel fuel after))) m' after /\
      m' (pv VnewValSum) = Real (fst (fold_left (kstep sel x y) (skipn (S n) fs) (s1, e1))) /\ m' (pv Vi) = m1 (pv Vi) /\ m' (pv Vj) = m1 (pv Vj) /\ only_private m1 m').
    { intros m1 s1 e1 N1 X1 Y1 S1 E1. destruct (IH (S n) (put m1 (pv Vn) (Int (Z.of_nat n + 1))) s1 e1) as (m' & R & A & B & C & D'); try lia.
      - rewrite put_same. f_equal. lia.
      - rewrite put_other by discriminate; exact X1.
      - rewrite put_other by discriminate; exact Y1.
      - rewrite put_other by discriminate; exact S1.
      - rewrite put_other by discriminate; exact E1.
      - exists m'. rewrite put_other in B, C by discriminate. split; [|repeat split; auto].
        + eapply same_trans; [apply same_int; [apply Opriv|exact N1]|]. eapply same_trans; [apply same_write; apply Opriv|]. exact R.
        + intros l Hl. rewrite (D' l Hl). apply put_other. intros <-. exact (Hl Vn eq_refl). }
    assert (ST : forall q, (forall g, nth_error (map pure fs) n = Some g -> same_run O m q m q) -> True) by auto. clear ST.
    rewrite Sk. cbn [fold_left]. unfold kstep at 2. cbn [fst snd].
    destruct (Bool.eqb (fo_point f) sel) eqn:P.
    + set (a := nsub N (fo_value f x y) e). set (u := nadd N s a). set (e' := nsub N (nsub N u s) a).
      set (m1 := put m (pv VadjVal) (Real a)). set (m2 := put m1 (pv VtempSum) (Real u)). set (m3 := put m2 (pv VstoredError) (Real e')). set (m4 := put m3 (pv VnewValSum) (Real u)).
      destruct (NX m4 u e') as (m' & R & A & B & C & D'); try (unfold m4, m3, m2, m1; pm; fail).
      exists m'. split; [|split; [exact A|split; [|split]]].
      * eapply same_trans; [apply same_int; [apply Opriv|exact Mn]|]. rewrite map_length. replace (Z.of_nat n <? Z.of_nat (length fs))%Z with true by (symmetry; apply Z.ltb_lt; lia).
        rewrite Nat2Z.id, nth_error_map, Q. cbn [option_map pure pf_point pf_get]. rewrite P.
        eapply same_trans; [apply same_real; [apply Opriv|exact Mx]|]. eapply same_trans; [apply same_real; [apply Opriv|exact My]|].
        eapply same_trans; [apply same_real; [apply Opriv|exact Me]|]. fold a. eapply same_trans; [apply same_write; apply Opriv|]. fold m1.
        eapply same_trans; [apply (@same_real O m1 _ s); [apply Opriv|unfold m1; pm]|]. eapply same_trans; [apply (@same_real O m1 _ a); [apply Opriv|unfold m1; pm]|].
        fold u. eapply same_trans; [apply same_write; apply Opriv|]. fold m2.
        eapply same_trans; [apply (@same_real O m2 _ u); [apply Opriv|unfold m2, m1; pm]|]. eapply same_trans; [apply (@same_real O m2 _ s); [apply Opriv|unfold m2, m1; pm]|].
        eapply same_trans; [apply (@same_real O m2 _ a); [apply Opriv|unfold m2, m1; pm]|]. fold e'. eapply same_trans; [apply same_write; apply Opriv|]. fold m3.
        eapply same_trans; [apply (@same_real O m3 _ u); [apply Opriv|unfold m3, m2, m1; pm]|]. eapply same_trans; [apply same_write; apply Opriv|]. fold m4. exact R.
      * rewrite B. unfold m4, m3, m2, m1. pm.
      * rewrite C. unfold m4, m3, m2, m1. pm.
      * intros l Hl. rewrite (D' l Hl). unfold m4, m3, m2, m1. rewrite !put_other; [reflexivity|apply not_eq_sym; apply Hl..].
    + destruct (NX m s e Mn Mx My Ms Me) as (m' & R & A & B & C & D'). exists m'. split; [|repeat split; auto].
      eapply same_trans; [apply same_int; [apply Opriv|exact Mn]|]. rewrite map_length. replace (Z.of_nat n <? Z.of_nat (length fs))%Z with true by (symmetry; apply Z.ltb_lt; lia).
      rewrite Nat2Z.id, nth_error_map, Q. cbn [option_map pure pf_point pf_get]. rewrite P. exact R.
Qed.

Lemma pixel_run (fs : list (fobj T)) sel (add : bool) nCols nVals cx cy k rest m r0 :
  k < nVals -> O (Pixel (Z.of_nat k)) -> m (Pixel (Z.of_nat k)) = Real r0 ->
  let s := kahan_sum N fs sel (cx (Z.rem (Z.of_nat k) nCols)) (cy (Z.quot (Z.of_nat k) nCols)) in
  exists m', same_run O m (pixel_body N private_pixels t (map pure fs) sel add nCols (Z.of_nat nVals) cx cy k rest) m' rest /\
    m' (Pixel (Z.of_nat k)) = Real (if add then nadd N r0 s else s) /\ (forall l, (forall v, l <> pv v) -> l <> Pixel (Z.of_nat k) -> m' l = m l).
Proof.
  intros Hk Ok Hm s. unfold pixel_body.
  change (addr private_pixels t Vn) with (pv Vn). change (addr private_pixels t Vx) with (pv Vx). change (addr private_pixels t Vy) with (pv Vy).
  change (addr private_pixels t VstoredError) with (pv VstoredError). change (addr private_pixels t VnewValSum) with (pv VnewValSum).
  change (addr private_pixels t Vi) with (pv Vi). change (addr private_pixels t Vj) with (pv Vj).
  set (j := Z.rem (Z.of_nat k) nCols) in *. set (i := Z.quot (Z.of_nat k) nCols) in *.
  set (m1 := put m (pv Vj) (Int j)). set (m2 := put m1 (pv Vi) (Int i)). set (m3 := put m2 (pv Vy) (Real (cy i))). set (m4 := put m3 (pv Vx) (Real (cx j))).
  set (m5 := put m4 (pv VnewValSum) (Real (nofZ N 0))). set (m6 := put m5 (pv VstoredError) (Real (nofZ N 0))). set (m7 := put m6 (pv Vn) (Int 0)).
  destruct (@kahan_run fs sel (read_int (pv Vi) (fun i => read_int (pv Vj) (fun j => read_real (pv VnewValSum) (fun s =>
    if ((0 <=? i * nCols + j)%Z && (i * nCols + j <? Z.of_nat nVals)%Z)%bool then
    if add then read_real (Pixel (i * nCols + j)) (fun old => Write (Pixel (i * nCols + j)) (Real (nadd N old s)) rest)
    else Write (Pixel (i * nCols + j)) (Real s) rest else Bad)))) (cx j) (cy i) (S (length fs)) 0 m7 (nofZ N 0) (nofZ N 0)) as (m8 & R & A & B & C & D); try lia; try (unfold m7, m6, m5, m4, m3, m2, m1; pm; fail).
  cbn [skipn] in A. rewrite <- kahan_sum_fold in A. assert (B7 : m7 (pv Vi) = Int i) by (unfold m7, m6, m5, m4, m3, m2, m1; pm). rewrite B7 in B. assert (C7 : m7 (pv Vj) = Int j) by (unfold m7, m6, m5, m4, m3, m2, m1; pm). rewrite C7 in C.
  assert (Ix : (i * nCols + j)%Z = Z.of_nat k). { unfold i, j. rewrite Z.mul_comm. symmetry. apply Z.quot_rem'. }
  assert (P8 : m8 (Pixel (Z.of_nat k)) = Real r0). { rewrite D by discriminate. unfold m7, m6, m5, m4, m3, m2, m1; pm. }
  exists (put m8 (Pixel (Z.of_nat k)) (Real (if add then nadd N r0 s else s))). split; [|split].
  - rewrite map_length. eapply same_trans; [apply same_write; apply Opriv|]. fold m1. eapply same_trans; [apply same_write; apply Opriv|]. fold m2.
    eapply same_trans; [apply (@same_int O m2 _ i); [apply Opriv|unfold m2, m1; pm]|]. eapply same_trans; [apply same_write; apply Opriv|]. fold m3.
    eapply same_trans; [apply (@same_int O m3 _ j); [apply Opriv|unfold m3, m2, m1; pm]|]. eapply same_trans; [apply same_write; apply Opriv|]. fold m4.
    eapply same_trans; [apply same_write; apply Opriv|]. fold m5. eapply same_trans; [apply same_write; apply Opriv|]. fold m6. eapply same_trans; [apply same_write; apply Opriv|]. fold m7.
    eapply same_trans; [exact R|]. eapply same_trans; [apply (@same_int O m8 _ i); [apply Opriv|exact B]|]. eapply same_trans; [apply (@same_int O m8 _ j); [apply Opriv|exact C]|].
    eapply same_trans; [apply (@same_real O m8 _ s); [apply Opriv|exact A]|]. rewrite Ix.
    replace ((0 <=? Z.of_nat k)%Z && (Z.of_nat k <? Z.of_nat nVals)%Z)%bool with true by (symmetry; apply andb_true_intro; split; [apply Z.leb_le|apply Z.ltb_lt]; lia).
    destruct add; [|apply same_write; exact Ok]. eapply same_trans; [apply same_real; [exact Ok|exact P8]|]. apply same_write; exact Ok.
  - apply put_same.
  - intros l Hl Hk'. rewrite put_other by congruence. rewrite (D l Hl). unfold m7, m6, m5, m4, m3, m2, m1. rewrite !put_other; [reflexivity|apply not_eq_sym; apply Hl..].
Qed.
End Solo.

(** ---- loops whose iterations own cells of the image ---- *)
Section Loop.
Variable T : Type.
Notation mem := (mem T). Notation prog := (prog T).
Variable nThreads chunk n : nat.
Variable body : nat -> nat -> prog -> prog.
Variable v : list T.
Variable cells : nat -> list nat.
Variable new : nat -> T -> T.
Hypothesis Hthreads : 0 < nThreads.
Hypothesis cells_in : forall i k, i < n -> In k (cells i) -> k < length v.
Hypothesis cells_apart : forall i j k, i < n -> j < n -> In k (cells i) -> In k (cells j) -> i = j.
Hypothesis body_run : forall t (O : loc -> Prop) i m rest, (forall x, O (Private t x)) -> i < n ->
  (forall k, In k (cells i) -> O (Pixel (Z.of_nat k))) ->
  (forall k, In k (cells i) -> exists r0, nth_error v k = Some r0 /\ m (Pixel (Z.of_nat k)) = Real r0) ->
  exists m', same_run O m (body t i rest) m' rest /\
    (forall k r0, In k (cells i) -> nth_error v k = Some r0 -> m' (Pixel (Z.of_nat k)) = Real (new k r0)) /\
    (forall l, (forall x, l <> Private t x) -> (forall k, In k (cells i) -> l <> Pixel (Z.of_nat k)) -> m' l = m l).

Lemma thread_run t (O : loc -> Prop) : (forall x, O (Private t x)) -> forall ks m,
  NoDup ks -> (forall i, In i ks -> i < n) ->
  (forall i k, In i ks -> In k (cells i) -> O (Pixel (Z.of_nat k))) ->
  (forall i k, In i ks -> In k (cells i) -> exists r0, nth_error v k = Some r0 /\ m (Pixel (Z.of_nat k)) = Real r0) ->
  let p := fold_right (body t) Stop ks in
  safe O m p /\ updates m p = [] /\
  (forall i k r0, In i ks -> In k (cells i) -> nth_error v k = Some r0 -> final m p (Pixel (Z.of_nat k)) = Real (new k r0)) /\
  (forall l, (forall x, l <> Private t x) -> (forall i k, In i ks -> In k (cells i) -> l <> Pixel (Z.of_nat k)) -> final m p l = m l).
Proof.
  intros Op. induction ks as [|i ks IH]; intros m ND Hi HO Hm p; cbn [fold_right] in p.
  - subst p. cbn. repeat split; auto. intros i k r0 [].
  - apply NoDup_cons_iff in ND. destruct ND as (Ni & ND).
    destruct (@body_run t O i m (fold_right (body t) Stop ks) Op (Hi i (or_introl eq_refl)) (fun k H => HO i k (or_introl eq_refl) H) (fun k H => Hm i k (or_introl eq_refl) H)) as (m' & (F & U & Sf) & A & B).
    assert (Dj : forall i' k, In i' ks -> In k (cells i') -> ~ In k (cells i)).
    { intros i' k H1 H2 H3. apply Ni. rewrite <- (@cells_apart i' i k); auto; apply Hi; [right; exact H1|left; reflexivity]. }
    destruct (IH m' ND) as (S' & U' & A' & B').
    + intros i' H. apply Hi. right. exact H.
    + intros i' k H. apply HO. right. exact H.
    + intros i' k H H2. destruct (Hm i' k (or_intror H) H2) as (r0 & Q & M). exists r0. split; [exact Q|]. rewrite B; [exact M|discriminate|].
      intros k' Hk' E. injection E as E. apply Nat2Z.inj in E. subst k'. exact (Dj i' k H H2 Hk').
    + subst p. split; [exact (Sf S')|]. split; [congruence|]. split.
      * intros i' k r0 [<-|H] Hk Q; rewrite F; [|exact (A' i' k r0 H Hk Q)]. rewrite B'; [exact (A k r0 Hk Q)|discriminate|].
        intros i' k' H1 H2 E. injection E as E. apply Nat2Z.inj in E. subst k'. exact (Dj i' k H1 H2 Hk).
      * intros l Hl Hk. rewrite F, B'; [apply B; [exact Hl|]|exact Hl|]; intros.
        -- apply Hk with i; [left; reflexivity|assumption].
        -- apply Hk with i0; [right; assumption|assumption].
Qed.

Definition owns (t : nat) (l : loc) : Prop := (exists x, l = Private t x) \/ (exists i k, i < n /\ owner nThreads chunk i = t /\ In k (cells i) /\ l = Pixel (Z.of_nat k)).
Lemma owns_apart t u l : t <> u -> owns t l -> ~ owns u l.
Proof.
  intros D [(x & ->)|(i & k & Hi & Ho & Hk & ->)] [(y & E)|(j & k' & Hj & Ho' & Hk' & E)]; try discriminate E.
  - injection E as E _. contradiction.
  - injection E as E. apply Nat2Z.inj in E. subst k'. rewrite (@cells_apart j i k Hj Hi Hk' Hk) in Ho'. congruence.
Qed.
Lemma image_mem_at k r0 : nth_error v k = Some r0 -> image_mem v (Pixel (Z.of_nat k)) = Real r0.
Proof. intros H. unfold image_mem. replace (0 <=? Z.of_nat k)%Z with true by (symmetry; apply Z.leb_le; lia). rewrite Nat2Z.id, H. reflexivity. Qed.
Lemma threads_nth t p : nth_error (map (thread_prog nThreads chunk n body Stop) (seq 0 nThreads)) t = Some p ->
  t < nThreads /\ p = fold_right (body t) Stop (iterations nThreads chunk n t).
Proof.
  intros H. rewrite nth_error_map in H. destruct (nth_error (seq 0 nThreads) t) as [u|] eqn:Q; [|discriminate H]. injection H as <-.
  assert (L : t < length (seq 0 nThreads)) by (apply nth_error_Some; congruence). rewrite seq_length in L. split; [exact L|].
  apply nth_error_nth with (d := 0) in Q. rewrite seq_nth in Q by exact L. subst u. reflexivity.
Qed.
Lemma in_iterations t i : In i (iterations nThreads chunk n t) <-> i < n /\ owner nThreads chunk i = t.
Proof. unfold iterations. rewrite filter_In, in_seq, Nat.eqb_eq. lia. Qed.
Lemma iterations_nodup t : NoDup (iterations nThreads chunk n t).
Proof. apply NoDup_filter. apply seq_NoDup. Qed.
Lemma owner_lt i : owner nThreads chunk i < nThreads.
Proof. apply Nat.mod_upper_bound. lia. Qed.

Lemma solo t : let p := fold_right (body t) Stop (iterations nThreads chunk n t) in
  safe (owns t) (image_mem v) p /\ updates (image_mem v) p = [] /\
  (forall i k r0, i < n -> owner nThreads chunk i = t -> In k (cells i) -> nth_error v k = Some r0 -> final (image_mem v) p (Pixel (Z.of_nat k)) = Real (new k r0)).
Proof.
  destruct (@thread_run t (owns t) (fun x => or_introl (ex_intro _ x eq_refl)) (iterations nThreads chunk n t) (image_mem v) (iterations_nodup t)) as (S' & U & A & _).
  - intros i H. apply in_iterations in H. apply H.
  - intros i k H Hk. apply in_iterations in H. destruct H as (Hi & Ho). right. exists i, k. auto.
  - intros i k H Hk. apply in_iterations in H. destruct (nth_error v k) as [r0|] eqn:Q.
    + exists r0. split; [reflexivity|exact (image_mem_at Q)].
    + apply nth_error_None in Q. pose proof (@cells_in i k (proj1 H) Hk). lia.
  - split; [exact S'|]. split; [exact U|]. intros i k r0 Hi Ho. apply A. apply in_iterations. auto.
Qed.

Lemma loop_ends : always_ends (start nThreads chunk n body v)
  (fun m => forall i k r0, i < n -> In k (cells i) -> nth_error v k = Some r0 -> m (Pixel (Z.of_nat k)) = Real (new k r0)).
Proof.
  unfold start. apply ends with (Os := owns).
  - exact owns_apart.
  - intros t [(x & E)|(i & k & _ & _ & _ & E)]; discriminate E.
  - cbn [fst snd]. intros t p H. apply threads_nth in H. destruct H as (_ & ->). apply solo.
  - cbn [fst snd]. intros m fs Ag _ _ i k r0 Hi Hk Q.
    destruct (@solo (owner nThreads chunk i)) as (_ & _ & A). pose proof (owner_lt i) as L.
    rewrite (Ag (owner nThreads chunk i) (fold_right (body (owner nThreads chunk i)) Stop (iterations nThreads chunk n (owner nThreads chunk i)))).
    + exact (A i k r0 Hi eq_refl Hk Q).
    + rewrite nth_error_map, nth_error_nth' with (d := 0) by (rewrite seq_length; exact L). rewrite seq_nth by exact L. reflexivity.
    + right. exists i, k. auto.
Qed.
End Loop.

(** ---- the result of a complete run ---- *)
Lemma existsb_bad {T} (ps : list (prog T)) : existsb is_bad ps = true -> In Bad ps.
Proof. intros H. apply existsb_exists in H. destruct H as (p & I & E). destruct p; try discriminate E. exact I. Qed.
Lemma forallb_stop {T} (ps : list (prog T)) : forallb is_stop ps = true -> forall p, In p ps -> p = Stop.
Proof. intros H p I. rewrite forallb_forall in H. specialize (H p I). destruct p; try discriminate H. reflexivity. Qed.
Lemma outcome_ok {T A} sched (c : config T) (P : mem T -> Prop) (get : mem T -> res A) (a : res A) :
  always_ends c P -> (forall m, P m -> get m = a) -> outcome sched c get = Fuel \/ outcome sched c get = a.
Proof.
  intros (b & H) G. unfold outcome. destruct (exec sched c) as [[m ps]|] eqn:E; [|left; reflexivity].
  destruct (H sched (m, ps) E) as (_ & U & _ & F & _).
  destruct (existsb is_bad ps) eqn:B; [exfalso; apply U; exact (existsb_bad B)|].
  destruct (forallb is_stop ps) eqn:S'; [|left; reflexivity]. right. apply G. apply F. exact (forallb_stop S').
Qed.
Lemma exec_app {T} s1 : forall s2 (c : config T), exec (s1 ++ s2) c = match exec s1 c with Some c' => exec s2 c' | None => None end.
Proof. induction s1 as [|t s1 IH]; intros s2 c; [reflexivity|]. cbn. destruct (step c t); [apply IH|reflexivity]. Qed.
(** complete runs exist *)
Lemma run_exists {T} (c : config T) P : always_ends c P -> exists sched c', exec sched c = Some c' /\ finished c'.
Proof.
  intros (b & H). assert (X : forall k sched c', exec sched c = Some c' -> b - length sched <= k -> exists s' c'', exec s' c = Some c'' /\ finished c'').
  { induction k as [|k IH]; intros sched c' E L.
    - exists sched, c'. split; [exact E|]. destruct (H _ _ E) as (_ & U & B & _ & Pr).
      assert (D : finished c' \/ ~ finished c').
      { clear. unfold finished. induction (snd c') as [|p ps IH]; [left; intros ? []|]. destruct IH as [IH|IH]; [|right; intros F; apply IH; intros q Hq; apply F; right; exact Hq].
        assert (D : p = Stop \/ p <> Stop) by (destruct p; [left; reflexivity|right; discriminate..]). destruct D as [->|D]; [left; intros q [<-|Hq]; auto|right; intros F; apply D; apply F; left; reflexivity]. }
      destruct D as [D|D]; [exact D|]. destruct (Pr D) as (t & St). destruct (step c' t) as [c2|] eqn:Q; [|contradiction].
      assert (E2 : exec (sched ++ [t]) c = Some c2) by (rewrite exec_app, E; cbn; rewrite Q; reflexivity). destruct (H _ _ E2) as (_ & _ & B2 & _). rewrite app_length in B2. cbn in B2. lia.
    - destruct (H _ _ E) as (_ & U & B & _ & Pr).
      assert (D : finished c' \/ ~ finished c').
      { clear. unfold finished. induction (snd c') as [|p ps IH]; [left; intros ? []|]. destruct IH as [IH|IH]; [|right; intros F; apply IH; intros q Hq; apply F; right; exact Hq].
        assert (D : p = Stop \/ p <> Stop) by (destruct p; [left; reflexivity|right; discriminate..]). destruct D as [->|D]; [left; intros q [<-|Hq]; auto|right; intros F; apply D; apply F; left; reflexivity]. }
      destruct D as [D|D]; [exists sched, c'; auto|]. destruct (Pr D) as (t & St). destruct (step c' t) as [c2|] eqn:Q; [|contradiction].
      assert (E2 : exec (sched ++ [t]) c = Some c2) by (rewrite exec_app, E; cbn; rewrite Q; reflexivity). apply (IH _ _ E2). rewrite app_length. cbn. lia. }
  apply (X b [] c eq_refl). lia.
Qed.
Lemma outcome_exists {T A} (c : config T) (P : mem T -> Prop) (get : mem T -> res A) a : always_ends c P -> (forall m, P m -> get m = a) -> exists sched, outcome sched c get = a.
Proof.
  intros H G. destruct (run_exists H) as (sched & [m ps] & E & F). exists sched. unfold outcome. rewrite E. destruct H as (b & H). destruct (H _ _ E) as (_ & U & _ & HP & _).
  destruct (existsb is_bad ps) eqn:B; [exfalso; apply U; exact (existsb_bad B)|].
  assert (Z : forallb is_stop ps = true) by (apply forallb_forall; intros p I; rewrite (F p I); reflexivity). rewrite Z. apply G. apply HP. exact F.
Qed.

Lemma image_ok {T} (m : mem T) (w : list T) : (forall k r, nth_error w k = Some r -> m (Pixel (Z.of_nat k)) = Real r) -> image_of m (length w) = Ok w.
Proof.
  intros H. unfold image_of. destruct (@for_inv (list T) (fun k acc => acc = firstn k w) (fun k acc => match m (Pixel (Z.of_nat k)) with Real r => Ok (acc ++ [r]) | _ => Undef end) (length w) []) as (acc & E & Q).
  - reflexivity.
  - intros k acc Hk ->. destruct (nth_error w k) as [r|] eqn:Q; [|apply nth_error_None in Q; lia]. rewrite (H k r Q). eexists. split; [reflexivity|].
    clear - Q. revert w Q. induction k as [|k IH]; intros [|a w] Q; try discriminate Q; [injection Q as ->; reflexivity|]. cbn [firstn app]. f_equal. apply IH. exact Q.
  - rewrite E, Q, firstn_all. reflexivity.
Qed.

(** ---- the pixel loop ---- *)
Section Pixels.
Variable T : Type.
Variable N : Num T.
Variable nThreads chunk : nat.
Hypothesis Hthreads : 0 < nThreads.
Variable fs : list (fobj T).
Variable sel add : bool.
Variable nCols : Z.
Variable cx cy : Z -> T.
Definition pixel_new (k : nat) (r0 : T) : T :=
  let s := kahan_sum N fs sel (cx (Z.rem (Z.of_nat k) nCols)) (cy (Z.quot (Z.of_nat k) nCols)) in if add then nadd N r0 s else s.
Lemma pixel_ends v : always_ends (pixel_config N nThreads chunk (map pure fs) sel add nCols cx cy v)
  (fun m => forall k r0, nth_error v k = Some r0 -> m (Pixel (Z.of_nat k)) = Real (pixel_new k r0)).
Proof.
  unfold pixel_config.
  destruct (@loop_ends T nThreads chunk (length v) (fun t => pixel_body N private_pixels t (map pure fs) sel add nCols (Z.of_nat (length v)) cx cy) v (fun i => [i]) pixel_new Hthreads) as (b & H).
  - intros i k Hi [<-|[]]. exact Hi.
  - intros i j k _ _ [<-|[]] [<-|[]]. reflexivity.
  - intros t O i m rest Op Hi HO Hm. destruct (Hm i (or_introl eq_refl)) as (r0 & Q & M).
    destruct (@pixel_run T N t O Op fs sel add nCols (length v) cx cy i rest m r0 Hi (HO i (or_introl eq_refl)) M) as (m' & R & A & B). exists m'. split; [exact R|]. split.
    + intros k r1 [<-|[]] Q1. rewrite Q in Q1. injection Q1 as <-. exact A.
    + intros l Hl Hk. apply B; [exact Hl|]. apply Hk. left. reflexivity.
  - exists b. intros sched c E. destruct (H sched c E) as (R & U & B & F & Pr). repeat split; auto. intros Fi k r0 Q. apply (F Fi k k r0); [apply nth_error_Some; congruence|left; reflexivity|exact Q].
Qed.
Definition pixel_image (v : list T) : list T := map (fun '(k, r0) => pixel_new k r0) (combine (seq 0 (length v)) v).
Lemma combine_seq_nth {A} (v : list A) : forall a k r, nth_error v k = Some r -> nth_error (combine (seq a (length v)) v) k = Some (a + k, r).
Proof. induction v as [|x v IH]; intros a [|k] r H; try discriminate H; cbn; [injection H as ->; rewrite Nat.add_0_r; reflexivity|]. rewrite (IH (S a) k r H). f_equal. f_equal. lia. Qed.
Lemma pixel_image_nth v k r0 : nth_error v k = Some r0 -> nth_error (pixel_image v) k = Some (pixel_new k r0).
Proof. intros H. unfold pixel_image. rewrite nth_error_map, (combine_seq_nth 0 H). reflexivity. Qed.
Lemma pixel_image_length v : length (pixel_image v) = length v.
Proof. unfold pixel_image. rewrite map_length, combine_length, seq_length. lia. Qed.
Lemma pixel_get v m : (forall k r0, nth_error v k = Some r0 -> m (Pixel (Z.of_nat k)) = Real (pixel_new k r0)) -> image_of m (length v) = Ok (pixel_image v).
Proof.
  intros H. rewrite <- pixel_image_length. apply image_ok. intros k r Q.
  assert (L : k < length v). { rewrite <- pixel_image_length. apply nth_error_Some. congruence. }
  destruct (nth_error v k) as [r0|] eqn:Q0; [|apply nth_error_None in Q0; lia]. rewrite (pixel_image_nth Q0) in Q. injection Q as <-. exact (H k r0 Q0).
Qed.
Lemma pixel_loop_ok v sched : pixel_loop N nThreads chunk (map pure fs) sel add nCols cx cy v sched = Fuel \/
  pixel_loop N nThreads chunk (map pure fs) sel add nCols cx cy v sched = Ok (pixel_image v).
Proof. unfold pixel_loop. apply (outcome_ok sched (pixel_ends v)). apply pixel_get. Qed.
Lemma pixel_loop_exists v : exists sched, pixel_loop N nThreads chunk (map pure fs) sel add nCols cx cy v sched = Ok (pixel_image v).
Proof. unfold pixel_loop. apply (outcome_exists (pixel_ends v)). apply pixel_get. Qed.
End Pixels.
