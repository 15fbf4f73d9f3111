(** A reader of decimal numerals, to show that the assumption [Exact] can be met. *)
From Coq Require Import Ascii String List ZArith Lia Bool Reals.
From Verif Require Import Base StrUtil_Model StrUtil_Spec StrUtil_Proof Config_Spec Save_Spec Chain_Spec.
Set Implicit Arguments. Unset Strict Implicit.
Import ListNotations.
Local Open Scope list_scope.

Fixpoint span (s : text) : text * text :=
  match s with
  | [] => ([], [])
  | c :: t => if is_digit c then let (a, b) := span t in (c :: a, b) else ([], s)
  end.
Definition sign (s : text) : bool * text :=
  match s with
  | c :: t => if Ascii.eqb c (ch 43) then (false, t) else if Ascii.eqb c (ch 45) then (true, t) else (false, s)
  | [] => (false, [])
  end.
Definition skip (n : nat) (s : text) : option text :=
  match s with c :: t => if Ascii.eqb c (ch n) then Some t else None | [] => None end.
Definition decimal (s : text) : R :=
  let (neg, s) := sign s in
  let (ip, s) := span s in
  let (fd, s) := match skip 46 s with Some t => span t | None => ([], s) end in
  let e := match skip 101 s with
           | Some t => let (n, t) := sign t in let v := read_digits (fst (span t)) 0 in if n then (- v)%Z else v
           | None => 0%Z
           end in
  ((if neg then -1 else 1) * IZR (read_digits (ip ++ fd) 0) * powerRZ 10 (e - Z.of_nat (List.length fd)))%R.

Definition stops (s : text) : Prop := match s with c :: _ => is_digit c = false | [] => True end.
Lemma span_ok d t : Forall (fun c => is_digit c = true) d -> stops t -> span (d ++ t) = (d, t).
Proof.
  intros H S. induction H as [|c d Hc HF IH]; cbn [app].
  - destruct t as [|c t]; [reflexivity|]. cbn [span]. cbn [stops] in S. now rewrite S.
  - cbn [span]. now rewrite Hc, IH.
Qed.
Lemma sign_ok sg neg t : SignText sg neg -> (match t with c :: _ => is_digit c = true | [] => False end) -> sign (sg ++ t) = (neg, t).
Proof.
  destruct t as [|c t]; [intros _ []|]. intros [| |] H; cbn [app]; unfold sign; try reflexivity.
  destruct (Ascii.eqb_spec c (ch 43)) as [->|]; [discriminate H|]. destruct (Ascii.eqb_spec c (ch 45)) as [->|]; [discriminate H|]. reflexivity.
Qed.
Lemma digits_head d v : Digits d v -> forall t, match d ++ t with c :: _ => is_digit c = true | [] => False end.
Proof. intros D t. destruct (Digits_all D) as [Hn HF]. destruct d as [|c d]; [congruence|]. cbn [app]. inversion HF; auto. Qed.
Lemma skip_expo n ex e : ExpoText ex e -> (n < 256)%nat -> n <> 101%nat -> skip n ex = None.
Proof.
  intros H Hn Hne. destruct H as [|sg neg d v]; [reflexivity|]. cbn [skip]. destruct (Ascii.eqb_spec (ch 101) (ch n)) as [E|]; [|reflexivity].
  exfalso. apply Hne. apply (f_equal nat_of_ascii) in E. unfold ch in E. rewrite !nat_ascii_embedding in E by lia. congruence.
Qed.
Lemma decimal_exact : Exact decimal.
Proof.
  intros s r (sg & neg & ip & vi & fr & fd & ex & e & v & -> & HSg & HI & HF & HE & HV & ->). unfold decimal.
  rewrite (@sign_ok sg neg (ip ++ fr ++ ex) HSg (digits_head HI _)).
  assert (SE : stops ex) by (destruct HE; [exact I|reflexivity]).
  assert (SF : stops (fr ++ ex)) by (destruct HF; [exact SE|reflexivity]).
  rewrite (span_ok (proj2 (Digits_all HI)) SF).
  assert (EF : match skip 46 (fr ++ ex) with Some t => span t | None => ([], fr ++ ex) end = (fd, ex)).
  { destruct HF as [|d v' D].
    - cbn [app]. rewrite (skip_expo (n := 46) HE) by lia. reflexivity.
    - cbn [app skip]. rewrite Ascii.eqb_refl. apply span_ok; [apply (Digits_all D)|exact SE]. }
  rewrite EF. rewrite (Digits_read HV).
  assert (EE : match skip 101 ex with
           | Some t => let (n, t) := sign t in let v := read_digits (fst (span t)) 0 in if n then (- v)%Z else v
           | None => 0%Z end = e).
  { destruct HE as [|sg' neg' d v' HSg' D]; [reflexivity|]. cbn [skip]. rewrite Ascii.eqb_refl.
    pose proof (digits_head D []) as HD. rewrite app_nil_r in HD. rewrite (sign_ok HSg' HD). 
    pose proof (@span_ok d [] (proj2 (Digits_all D)) I) as SD. rewrite app_nil_r in SD. rewrite SD. cbn [fst]. rewrite (Digits_read D). reflexivity. }
  cbv zeta in EE |- *. rewrite EE. reflexivity.
Qed.
