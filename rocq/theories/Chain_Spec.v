(** Giving the parameter file that imfit writes to makeimage: what has to come out. *)
From Coq Require Import ZArith List Bool Ascii String Reals.
From Verif Require Import StrUtil_Spec Config_Spec Config_Model Save_Spec.   (* of Config_Model only the record [pout] *)
Import ListNotations.
Local Open Scope list_scope.

(** a model without its numbers: names, labels and optional parameters of the functions,
    by blocks, and the numbers of parameters *)
Definition shape {T} (bs : list (sblock T)) : list (list (text * text * smap * nat)) :=
  map (fun b => map (fun f => (s_name f, s_label f, s_opts f, List.length (s_vals f))) (s_funcs b)) bs.

(** a configuration file without limits that describes the model *)
Definition content {T} (bs : list (sblock T)) : pout T :=
  mkOut (map s_name (sall bs)) (map s_label (sall bs)) (sflat bs) [] (sstarts bs) false (map s_opts (sall bs)).

(** [r] is the number [fst v] to four decimals (a centre) or to six significant digits
    (any other parameter) *)
Definition Near {T} (toR : T -> R) (r : R) (v : T * bool) : Prop :=
  if snd v then (Rabs (r - toR (fst v)) <= 5 / 100000)%R
  else (Rabs (r - toR (fst v)) <= 5 / 1000000 * Rabs (toR (fst v)))%R.

(** the number that a decimal numeral stands for is read *)
Definition Exact (strtod : text -> R) : Prop := forall s r, Decimal s r -> strtod s = r.
