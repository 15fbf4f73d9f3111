(** What the NLopt front ends are supposed to do, and what NLopt itself is
    assumed to do. *)
From Coq Require Import ZArith List Bool String.
From Verif Require Export Base Num Nlopt_Model.
Import ListNotations.
Set Implicit Arguments.

Section Spec.
Variable T : Type.
Variable N : Num T.

(** [v] satisfies an optional lower and upper bound (None = infinite) *)
Definition within (lo hi : option T) (v : T) : Prop :=
  match lo with Some a => nleb N a v = true | None => True end /\
  match hi with Some b => nleb N v b = true | None => True end.

(** NLopt's contract on bounds: started within the bounds, it evaluates the
    function and returns a point only within them. *)
Inductive stays_within (lo hi : list (option T)) : Run T -> Prop :=
| SW_ask x go_on :
    List.length x = List.length lo ->
    (forall i v, nth_error x i = Some v -> within (nth i lo None) (nth i hi None) v) ->
    (forall v b, stays_within lo hi (go_on v b)) -> stays_within lo hi (Ask x go_on)
| SW_done s x f :
    List.length x = List.length lo ->
    (forall i v, nth_error x i = Some v -> within (nth i lo None) (nth i hi None) v) ->
    stays_within lo hi (Done s x f).

Definition respects_bounds (lib : Library T) : Prop :=
  forall s start,
    List.length start = List.length (lower s) -> List.length start = List.length (upper s) ->
    (forall i v, nth_error start i = Some v -> within (nth i (lower s) None) (nth i (upper s) None) v) ->
    stays_within (lower s) (upper s) (lib s start).

(** NLopt's contract on nlopt_force_stop(): it then returns NLOPT_FORCED_STOP
    (-5) without evaluating the function again. *)
Inductive obeys_stop : Run T -> Prop :=
| OS_ask x go_on :
    (forall v, exists x' f', go_on v true = Done (-5) x' f') ->
    (forall v, obeys_stop (go_on v false)) -> obeys_stop (Ask x go_on)
| OS_done s x f : obeys_stop (Done s x f).

Definition honours_force_stop (lib : Library T) : Prop := forall s start, obeys_stop (lib s start).

(** What the user asked for, for one parameter: the value it must keep if it
    is fixed, otherwise the limits that were given. *)
Definition user_bounds (value : T) (l : Limits T) : option T * option T :=
  if fixed l then (Some value, Some value)
  else (if limited0 l then Some (lim0 l) else None, if limited1 l then Some (lim1 l) else None).

(** Limits come in pairs: a parameter has both or neither *)
Definition two_sided (l : Limits T) : Prop := fixed l = true \/ limited0 l = limited1 l.

(** a parameter vector satisfies what the user asked for *)
Definition acceptable (start : list T) (ls : list (Limits T)) (x : list T) : Prop :=
  List.length x = List.length start /\
  forall i v l s, nth_error x i = Some v -> nth_error ls i = Some l -> nth_error start i = Some s ->
    within (fst (user_bounds s l)) (snd (user_bounds s l)) v.

End Spec.
