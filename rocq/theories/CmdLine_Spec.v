(** Command lines and what they say, stated without reference to the parser. *)
From Coq Require Import Ascii String List.
Import ListNotations.
Local Open Scope list_scope.

Notation word := (list ascii).

(** a registered flag or option with its one or two names *)
Record reg := mkReg { rg_flag : bool; rg_queue : bool; rg_names : list word }.

(** what the user wrote *)
Inductive item :=
| UFlag (name : word)                    (* -name *)
| UOpt (name value : word)               (* -name value *)
| UOptEq (name value : word)             (* -name=value *)
| UArg (w : word)                        (* word *)
| UUnknown (w : word).                   (* -something not registered *)

Definition no_eq (s : word) : Prop := Forall (fun c => c <> ascii_of_nat 61) s.
Definition not_dash_first (s : word) : Prop := forall c r, s = c :: r -> c <> ascii_of_nat 45.
Definition dashes (d : word) : Prop := d <> [] /\ Forall (fun c => c = ascii_of_nat 45) d.
Definition Name (s : word) : Prop := s <> [] /\ not_dash_first s /\ no_eq s.

Definition IsReg (flag : bool) (regs : list reg) (n : word) : Prop :=
  exists r, In r regs /\ In n (rg_names r) /\ rg_flag r = flag.

(** [Writes regs it ws]: the words [ws] are a way of writing [it], with any number
    of leading dashes *)
Inductive Writes (regs : list reg) : item -> list word -> Prop :=
| W_flag n d : dashes d -> Name n -> IsReg true regs n -> Writes regs (UFlag n) [d ++ n]
| W_opt n v d : dashes d -> Name n -> IsReg false regs n -> Writes regs (UOpt n v) [d ++ n; v]
| W_opteq n v d : dashes d -> Name n -> v <> [] -> no_eq v -> IsReg false regs n ->
    Writes regs (UOptEq n v) [d ++ n ++ ascii_of_nat 61 :: v]
| W_arg w : not_dash_first w -> Writes regs (UArg w) [w]
| W_unknown n d : dashes d -> Name n -> ~ IsReg true regs n -> ~ IsReg false regs n ->
    Writes regs (UUnknown (d ++ n)) [d ++ n].

(** a command line (without the program name) *)
Inductive Line (regs : list reg) : list item -> list word -> Prop :=
| L_nil : Line regs [] []
| L_cons it ws its rest : Writes regs it ws -> Line regs its rest -> Line regs (it :: its) (ws ++ rest).

(** values given to the registration [r], in order; positional arguments, in order *)
Definition value_for (r : reg) (it : item) (v : word) : Prop :=
  exists n, In n (rg_names r) /\ (it = UOpt n v \/ it = UOptEq n v).
Inductive ValuesFor (r : reg) : list item -> list word -> Prop :=
| VF_nil : ValuesFor r [] []
| VF_yes it v its vs : value_for r it v -> ValuesFor r its vs -> ValuesFor r (it :: its) (v :: vs)
| VF_no it its vs : (forall v, ~ value_for r it v) -> ValuesFor r its vs -> ValuesFor r (it :: its) vs.
Definition flag_given (r : reg) (its : list item) : Prop :=
  exists n, In n (rg_names r) /\ In (UFlag n) its.
Fixpoint positional (its : list item) : list word :=
  match its with
  | [] => []
  | UArg w :: t => w :: positional t
  | _ :: t => positional t
  end.
