(** Common vocabulary of the model: outcomes, checked arrays, counted loops.

    C++ undefined behaviour is the separate outcome [Undef]; a loop that may
    run forever is given fuel and answers [Fuel] when the fuel is exhausted.
    No definition of the model replaces either by a default value. *)

From Coq Require Export List Arith ZArith Lia Bool.
Export ListNotations.

Set Implicit Arguments.

Inductive res (A : Type) : Type :=
| Ok (a : A)      (* normal result *)
| Undef           (* undefined behaviour in C++ (out-of-range access, bad conversion, ...) *)
| Abort           (* the program stops: exit() or an uncaught C++ exception *)
| Fuel.           (* the bounded number of loop steps was used up *)
Arguments Ok {A} a.
Arguments Undef {A}.
Arguments Abort {A}.
Arguments Fuel {A}.

Definition bind {A B} (x : res A) (f : A -> res B) : res B :=
  match x with Ok a => f a | Undef => Undef | Abort => Abort | Fuel => Fuel end.

Declare Scope res_scope.
Notation "'do' x <- a ; b" := (bind a (fun x => b))
  (at level 200, x pattern, a at level 100, b at level 200) : res_scope.
Open Scope res_scope.

(** [a[i]] on a C array or std::vector ([operator\[\]], unchecked in C++). *)
Definition get {A} (a : list A) (i : nat) : res A :=
  match nth_error a i with Some x => Ok x | None => Undef end.

Definition getZ {A} (a : list A) (i : Z) : res A :=
  if (i <? 0)%Z then Undef else get a (Z.to_nat i).

(** functional update; identity outside the list *)
Fixpoint upd {A} (a : list A) (i : nat) (x : A) : list A :=
  match a, i with
  | [], _ => []
  | _ :: t, O => x :: t
  | h :: t, S j => h :: upd t j x
  end.

(** [a[i] = x] *)
Definition set {A} (a : list A) (i : nat) (x : A) : res (list A) :=
  if i <? length a then Ok (upd a i x) else Undef.

Definition setZ {A} (a : list A) (i : Z) (x : A) : res (list A) :=
  if (i <? 0)%Z then Undef else set a (Z.to_nat i) x.

(** [for (i = k; i < k + n; i++) s = f(i, s)] *)
Fixpoint for_from {S} (k n : nat) (f : nat -> S -> res S) (s : S) : res S :=
  match n with
  | O => Ok s
  | Datatypes.S m => do s' <- f k s; for_from (Datatypes.S k) m f s'
  end.

(** [for (i = 0; i < n; i++) s = f(i, s)] *)
Definition for_ {S} (n : nat) (f : nat -> S -> res S) (s : S) : res S := for_from 0 n f s.

(** [for (i = lo; i < hi; i++) s = f(i, s)] over [int] *)
Definition forZ {S} (lo hi : Z) (f : Z -> S -> res S) (s : S) : res S :=
  for_ (Z.to_nat (hi - lo)) (fun k s => f (lo + Z.of_nat k)%Z s) s.

Lemma Ok_inj {A} (a b : A) : Ok a = Ok b -> a = b.
Proof. intros H; injection H; auto. Qed.

(** ---- facts about arrays ---- *)

Lemma upd_length {A} (a : list A) i x : length (upd a i x) = length a.
Proof. revert i; induction a as [|h t IH]; intros [|i]; simpl; auto. Qed.

Lemma nth_error_upd {A} (a : list A) i x j :
  nth_error (upd a i x) j =
  if (i =? j) && (i <? length a) then Some x else nth_error a j.
Proof.
  revert i j; induction a as [|h t IH]; intros [|i] [|j]; simpl; auto.
  - now rewrite andb_false_r.
  - rewrite IH. reflexivity.
Qed.

Lemma get_Ok_iff {A} (a : list A) i x : get a i = Ok x <-> nth_error a i = Some x.
Proof. unfold get; destruct (nth_error a i); split; congruence. Qed.

Lemma get_lt {A} (a : list A) i : i < length a -> exists x, get a i = Ok x.
Proof.
  intros H. unfold get. destruct (nth_error a i) eqn:E; eauto.
  apply nth_error_None in E; lia.
Qed.

Lemma get_nth {A} (d : A) (a : list A) i : i < length a -> get a i = Ok (nth i a d).
Proof.
  intros H. unfold get. rewrite (nth_error_nth' a d H). reflexivity.
Qed.

Lemma get_ge {A} (a : list A) i : length a <= i -> get a i = Undef.
Proof. intros H. unfold get. apply nth_error_None in H. now rewrite H. Qed.

Lemma set_lt {A} (a : list A) i x : i < length a -> set a i x = Ok (upd a i x).
Proof. intros H. unfold set. apply Nat.ltb_lt in H. now rewrite H. Qed.

Lemma set_ge {A} (a : list A) i x : length a <= i -> set a i x = Undef.
Proof. intros H. unfold set. apply Nat.ltb_ge in H. now rewrite H. Qed.

(** ---- facts about loops ---- *)

Lemma for_from_inv {S} (P : nat -> S -> Prop) (f : nat -> S -> res S) n : forall k s,
  P k s ->
  (forall i s, k <= i < k + n -> P i s -> exists s', f i s = Ok s' /\ P (Datatypes.S i) s') ->
  exists s', for_from k n f s = Ok s' /\ P (k + n) s'.
Proof.
  induction n as [|n IH]; intros k s H0 Hstep; simpl.
  - exists s. rewrite Nat.add_0_r. auto.
  - destruct (Hstep k s) as (s1 & E1 & P1); [lia|auto|].
    rewrite E1; simpl. rewrite Nat.add_succ_r.
    destruct (IH (Datatypes.S k) s1 P1) as (s2 & E2 & P2).
    + intros i t Hi Ht. apply Hstep; [lia|auto].
    + exists s2. rewrite E2. split; auto.
Qed.

Lemma for_inv {S} (P : nat -> S -> Prop) (f : nat -> S -> res S) n s :
  P 0 s ->
  (forall i s, i < n -> P i s -> exists s', f i s = Ok s' /\ P (Datatypes.S i) s') ->
  exists s', for_ n f s = Ok s' /\ P n s'.
Proof.
  intros H0 Hs. unfold for_. apply (@for_from_inv S P f n 0 s H0).
  intros i t Hi. apply Hs. lia.
Qed.

Lemma for_from_ext {S} (f g : nat -> S -> res S) n : forall k s,
  (forall i s, k <= i < k + n -> f i s = g i s) -> for_from k n f s = for_from k n g s.
Proof.
  induction n as [|n IH]; intros k s H; simpl; auto.
  rewrite H by lia. destruct (g k s); simpl; auto. apply IH. intros; apply H; lia.
Qed.

Lemma for_ext {S} (f g : nat -> S -> res S) n s :
  (forall i s, i < n -> f i s = g i s) -> for_ n f s = for_ n g s.
Proof. intros H. apply for_from_ext. intros i t Hi. apply H. lia. Qed.

Lemma for_from_app {S} (f : nat -> S -> res S) n m : forall k s,
  for_from k (n + m) f s = (do s1 <- for_from k n f s; for_from (k + n) m f s1).
Proof.
  induction n as [|n IH]; intros k s; simpl.
  - now rewrite Nat.add_0_r.
  - destruct (f k s); simpl; auto. rewrite IH. simpl. now rewrite Nat.add_succ_r.
Qed.

Lemma for_S {S} (f : nat -> S -> res S) n s :
  for_ (Datatypes.S n) f s = (do s1 <- for_ n f s; f n s1).
Proof.
  unfold for_. replace (Datatypes.S n) with (n + 1) by lia. rewrite for_from_app. simpl.
  destruct (for_from 0 n f s); simpl; auto. destruct (f n a); reflexivity.
Qed.

(** A loop whose body cannot fail is a fold. *)
Lemma for_from_pure {S} (g : nat -> S -> S) n : forall k s,
  for_from k n (fun i s => Ok (g i s)) s = Ok (fold_left (fun s i => g i s) (seq k n) s).
Proof. induction n as [|n IH]; intros k s; simpl; auto. Qed.

Lemma for_pure {S} (g : nat -> S -> S) n s :
  for_ n (fun i s => Ok (g i s)) s = Ok (fold_left (fun s i => g i s) (seq 0 n) s).
Proof. apply for_from_pure. Qed.

(** partial correctness: whatever the body does, if it answers [Ok] *)
Lemma for_from_ok {S} (P : nat -> S -> Prop) (f : nat -> S -> res S) n : forall k s s',
  P k s ->
  (forall i a b, k <= i < k + n -> P i a -> f i a = Ok b -> P (Datatypes.S i) b) ->
  for_from k n f s = Ok s' -> P (k + n) s'.
Proof.
  induction n as [|n IH]; intros k s s' H0 Hs E; simpl in E.
  - injection E as <-. now rewrite Nat.add_0_r.
  - destruct (f k s) as [a| | |] eqn:Ef; simpl in E; try discriminate.
    rewrite Nat.add_succ_r. apply (IH (Datatypes.S k) a s'); auto.
    + apply (Hs k s a); auto. lia.
    + intros i x y Hi. apply Hs. lia.
Qed.
Lemma for_ok {S} (P : nat -> S -> Prop) (f : nat -> S -> res S) n s s' :
  P 0 s -> (forall i a b, i < n -> P i a -> f i a = Ok b -> P (Datatypes.S i) b) ->
  for_ n f s = Ok s' -> P n s'.
Proof. intros H0 Hs E. apply (@for_from_ok S P f n 0 s s' H0); auto. intros i a b Hi. apply Hs. lia. Qed.
Lemma bind_Ok {A B} (x : res A) (f : A -> res B) b : bind x f = Ok b -> exists a, x = Ok a /\ f a = Ok b.
Proof. destruct x; simpl; intros H; try discriminate. eauto. Qed.
