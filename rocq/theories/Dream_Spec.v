(** What the DREAM properties (C46-C51) mean, independently of the way the sampler works. *)
From Coq Require Import List Arith ZArith Bool Reals Permutation.
From Verif Require Import Base Num Dream_Model.
Import ListNotations.
Set Implicit Arguments.

(** contract of the random-number library: integers in range, shuffles are permutations, multinomial
    counts add up. Uniform and Gaussian numbers are arbitrary. *)
Record rng_ok {T G} (rg : rng T G) : Prop := {
  int_range : forall g n, (0 < n)%Z -> (0 <= fst (r_int rg g n) < n)%Z;
  perm_ok : forall g n, Permutation (seq 0 n) (fst (r_perm rg g n));
  multi_len : forall g k n q, length (fst (r_multi rg g k n q)) = k;
  multi_sum : forall g k n q, 0 < k -> list_sum (fst (r_multi rg g k n q)) = n }.

Section Spec.
Variable T : Type.
Variable N : Num T.

(** a parameter vector keeps to the limits: locked parameters have their fixed value (which the
    program stores as low limit), the others are neither below the low nor above the high limit *)
Definition respects (lock : list bool) (lo hi : list T) (x : list T) : Prop :=
  length x = length lock /\
  forall j b l h v, nth_error lock j = Some b -> nth_error lo j = Some l -> nth_error hi j = Some h ->
    nth_error x j = Some v ->
    if b then v = l else nltb N v l = false /\ nltb N h v = false.

(** limits that make sense: one per parameter, the high one not below the low one *)
Definition sane_limits (p : pars T) : Prop :=
  length (varLock p) = nvar p /\ length (varLo p) = nvar p /\ length (varHi p) = nvar p /\
  forall j l h, nth_error (varLo p) j = Some l -> nth_error (varHi p) j = Some h -> nltb N h l = false.

(** generation t, chain i *)
Definition at_ {A} (h : list (list A)) (t i : nat) : option A :=
  match nth_error h t with Some row => nth_error row i | None => None end.

(** the Metropolis rule on log-likelihoods; [u] is the uniform number, when one was drawn *)
Definition metropolis (ninf lprev lnew : T) (u : option T) : Prop :=
  neqb N lnew ninf = false /\
  (nleb N lprev lnew = true \/ exists v, u = Some v /\ nltb N (nlog N v) (nsub N lnew lprev) = true).
(** a number is drawn exactly when the rule needs it *)
Definition drawn_when_needed (ninf lprev lnew : T) (u : option T) : Prop :=
  u = None <-> neqb N lnew ninf = true \/ nleb N lprev lnew = true.

(** the transition of one chain from (x, l) to (x', l') *)
Definition transition (lock : list bool) (lo hi : list T) (fn : list T -> T) (ninf : T)
    (x : list T) (l : T) (tr : trans T) (x' : list T) (l' : T) : Prop :=
  tr_prev tr = l /\
  (* the proposal was evaluated, or lies outside the limits and counts as impossible *)
  ((tr_new tr = fn (tr_prop tr)) \/
   (~ respects lock lo hi (tr_prop tr) /\ tr_new tr = ninf)) /\
  drawn_when_needed ninf (tr_prev tr) (tr_new tr) (tr_u tr) /\
  (tr_acc tr = true <-> metropolis ninf (tr_prev tr) (tr_new tr) (tr_u tr)) /\
  (if tr_acc tr then x' = tr_prop tr /\ l' = tr_new tr else x' = x /\ l' = l).

(** [vals] are the values recorded for chain i in generations a .. a+len-1 *)
Definition values {A} (h : list (list A)) (a len i : nat) (vals : list A) : Prop :=
  length vals = len /\ forall k, k < len -> at_ h (a + k) i = nth_error vals k.
(** the mean log-likelihoods of the chains over the second half, generations t/2 .. t-1 *)
Definition mean_logliks (gs : gsl T) (lk : list (list T)) (n t : nat) (means : list T) : Prop :=
  length means = n /\
  forall i m, nth_error means i = Some m ->
    exists vals, values lk (t / 2) (t - t / 2) i vals /\ m = g_mean gs vals.
(** more than twice the inter-quartile range below the first quartile *)
Definition is_outlier (gs : gsl T) (means : list T) (m : T) : bool :=
  let Q1 := g_quant gs (g_sort gs means) (ndec N 25 2) in
  let Q3 := g_quant gs (g_sort gs means) (ndec N 75 2) in
  nltb N m (nsub N Q1 (nmul N (nofZ N 2) (nsub N Q3 Q1))).
(** generations in which outliers are looked for: every loopSteps-th since the generation [base] with
    which the run began (1 for a new run), in the early part of the run *)
Definition collapse_due (p : pars T) (base t : nat) : bool :=
  ((t - base + 1) mod loopSteps p =? 0) && collapseOutliers p &&
  nltb N (nofZ N (Z.of_nat t)) (nmul N (reenterBurnin p) (nofZ N (Z.of_nat (maxEvals p)))).
(** the row [y], [ly] obtained by the transitions becomes [x], [l] *)
Definition outliers_moved (gs : gsl T) (p : pars T) (base t : nat) (lk : list (list T))
    (y x : list (list T)) (ly l : list T) : Prop :=
  length x = length y /\ length l = length ly /\
  if collapse_due p base t then
    exists means, mean_logliks gs lk (numChains p) t means /\
    let best := g_max_index gs means in
    forall i m, nth_error means i = Some m ->
      let from := if is_outlier gs means m then best else i in
      nth_error x i = nth_error y from /\ nth_error l i = nth_error ly from
  else x = y /\ l = ly.

(** generation k of a history follows from generation k-1: every chain makes a transition (tr holds
    the transitions from generation [base] on), then outliers are moved *)
Definition follows (gs : gsl T) (p : pars T) (fn : list T -> T) (ninf : T) (base : nat)
    (st : list (list (list T))) (lk : list (list T)) (tr : list (list (trans T))) (k : nat) : Prop :=
  exists y ly row lrow, nth_error st k = Some row /\ nth_error lk k = Some lrow /\
    length y = numChains p /\ length ly = numChains p /\
    (forall i, i < numChains p -> exists x l q a b,
       at_ st (k - 1) i = Some x /\ at_ lk (k - 1) i = Some l /\ at_ tr (k - base) i = Some q /\
       nth_error y i = Some a /\ nth_error ly i = Some b /\
       transition (varLock p) (varLo p) (varHi p) fn ninf x l q a b) /\
    outliers_moved gs p base k lk y row ly lrow.

(** a pair of chains fit for chain i among n *)
Definition good_pair (n i : nat) (q : Z * Z) : Prop :=
  let '(a, b) := q in
  (0 <= a < Z.of_nat n)%Z /\ (0 <= b < Z.of_nat n)%Z /\ a <> b /\ a <> Z.of_nat i /\ b <> Z.of_nat i.

(** acc + the differences of parameter j between the chains of each pair, in order *)
Fixpoint differences (prev : list (list T)) (j : nat) (pairs : list (Z * Z)) (acc : T) : option T :=
  match pairs with
  | [] => Some acc
  | (a, b) :: ps =>
    match at_ prev (Z.to_nat a) j, at_ prev (Z.to_nat b) j with
    | Some x, Some y => differences prev j ps (nadd N acc (nsub N x y))
    | _, _ => None
    end
  end.

(** the number of free parameters agrees with the locks (as SetupDreamParams counts them) *)
Definition free_counted (p : pars T) : Prop :=
  nfree p = Z.of_nat (count_occ Bool.bool_dec (varLock p) false).

(** the jump rate for d pairs and k updated parameters: 1 in every fifth generation (but the first), else
    2.38 / sqrt(2 k d) *)
Definition jump_rate (t k d : nat) : T :=
  if (1 <? t) && (t mod 5 =? 0) then nofZ N 1
  else ndiv N (ndec N 238 2) (nsqrt N (nmul N (nmul N (nofZ N 2) (nofZ N (Z.of_nat k))) (nofZ N (Z.of_nat d)))).

(** [v] is the proposal made from [cur] with the given pairs; [mask] marks the parameters updated *)
Definition made_from (t : nat) (lock : list bool) (prev : list (list T)) (cur : list T) (pairs : list (Z * Z))
    (mask : list bool) (v : list T) : Prop :=
  length v = length lock /\ length mask = length lock /\
  forall j x y m, nth_error cur j = Some x -> nth_error v j = Some y -> nth_error mask j = Some m ->
    if m then nth_error lock j = Some false /\ exists e eps d, differences prev j pairs (nofZ N 0) = Some d /\
       y = nadd N x (nadd N (nmul N (nmul N (nadd N (nofZ N 1) e)
             (jump_rate t (count_occ Bool.bool_dec mask true) (length pairs))) d) eps)
    else y = x.

(** [param_values st a len i j vals]: parameter j of chain i in generations a .. a+len-1 *)
Definition param_values (st : list (list (list T))) (a len i j : nat) (vals : list T) : Prop :=
  length vals = len /\ forall k, k < len ->
    exists x, at_ st (a + k) i = Some x /\ nth_error x j = nth_error vals k.
End Spec.

(** L_0 entries 1, then L_1 entries 2, ... *)
Fixpoint crossover_entries (m : nat) (L : list nat) : list (option Z) :=
  match L with
  | [] => []
  | l :: rest => repeat (Some (Z.of_nat m)) l ++ crossover_entries (S m) rest
  end.

(** ---- Gelman and Rubin's potential scale reduction, in exact arithmetic ---- *)
Local Open Scope R_scope.
Definition Rsum (l : list R) : R := fold_right Rplus 0 l.
Definition Rmean (l : list R) : R := Rsum l / INR (length l).
(** sum of squares about m, divided by the number of values less one *)
Definition Rvar_about (m : R) (l : list R) : R := Rsum (map (fun x => (x - m) * (x - m)) l) / (INR (length l) - 1).
Definition Rvar (l : list R) : R := Rvar_about (Rmean l) l.
(** what GSL documents *)
Record gsl_exact (gs : gsl R) : Prop := {
  ex_mean : forall l, g_mean gs l = Rmean l;
  ex_var_m : forall l m, g_var_m gs l m = Rvar_about m l;
  ex_sd : forall l, g_sd gs l = sqrt (Rvar l) }.

(** W, B/n and R-hat of m chains of n values each *)
Definition within (chains : list (list R)) : R := Rmean (map Rvar chains).
Definition between (chains : list (list R)) : R := Rvar (map Rmean chains).
Definition scale_reduction (n : nat) (chains : list (list R)) : R :=
  let W := within chains in
  let B := between chains in
  sqrt (((INR n - 1) / INR n * W + B + B / INR (length chains)) / W).
