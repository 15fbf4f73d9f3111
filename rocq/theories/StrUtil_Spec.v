(** What tokenising, trimming, chopping and image sections mean, stated without
    reference to the program. *)
From Coq Require Import List ZArith Ascii String.
Import ListNotations.
Local Open Scope list_scope.

Section Text.
  Variable delim : ascii -> Prop.     (* which characters separate tokens *)

  Definition only (P : ascii -> Prop) (s : list ascii) : Prop := Forall P s.

  (** [Tokens s ts]: [s] is  gap tok gap tok ... tok gap  where gaps consist of
      separators, tokens are non-empty runs of non-separators and every token
      but the last is followed by at least one separator; [ts] lists the tokens
      in order. *)
  Inductive Tokens : list ascii -> list (list ascii) -> Prop :=
  | Tok_none g : only delim g -> Tokens g []
  | Tok_last g t : only delim g -> t <> [] -> only (fun c => ~ delim c) t -> Tokens (g ++ t) [t]
  | Tok_more g t c r ts :
      only delim g -> t <> [] -> only (fun c => ~ delim c) t -> delim c ->
      Tokens (c :: r) ts -> Tokens (g ++ t ++ c :: r) (t :: ts).

  (** a separator occurs somewhere after the first token *)
  Definition HasLaterDelim (s : list ascii) : Prop :=
    exists g t c r, s = g ++ t ++ c :: r /\ only delim g /\ t <> [] /\
                    only (fun c => ~ delim c) t /\ delim c.

  (** [Trimmed s t]: [t] is [s] without its leading and trailing separators *)
  Definition Trimmed (s t : list ascii) : Prop :=
    exists g h, s = g ++ t ++ h /\ only delim g /\ only delim h /\
      (t = [] \/
       (exists c r, t = c :: r /\ ~ delim c) /\ (exists r c, t = r ++ [c] /\ ~ delim c)).
End Text.

(** [Numeral s v]: [s] is a non-empty string of decimal digits with value [v]. *)
Definition DigitVal (c : ascii) (v : Z) : Prop := (0 <= v <= 9)%Z /\ nat_of_ascii c = Z.to_nat (48 + v).
Inductive Digits : list ascii -> Z -> Prop :=
| Dig_one c v : DigitVal c v -> Digits [c] v
| Dig_more s v c w : Digits s v -> DigitVal c w -> Digits (s ++ [c]) (10 * v + w)%Z.

(** One axis of an image section: "*" or "first:last". *)
Inductive SecAxis : list ascii -> Z -> Prop :=
| Sec_star : SecAxis [ascii_of_nat 42] 1
| Sec_range a b va vb : Digits a va -> Digits b vb -> SecAxis (a ++ ascii_of_nat 58 :: b) va.

(** "xaxis,yaxis" *)
Definition Section_ (s : list ascii) (x y : Z) : Prop :=
  exists sx sy, s = sx ++ ascii_of_nat 44 :: sy /\ SecAxis sx x /\ SecAxis sy y.

Definition no_char (n : nat) (s : list ascii) : Prop := Forall (fun c => c <> ascii_of_nat n) s.
