From Coq Require Import Ascii String List ZArith Lia Bool Reals.
From Verif Require Import Base Num StrUtil_Model StrUtil_Spec Config_Model Config_Spec Params_Model Params_Spec Build_Model Save_Model Save_Spec Build_Spec.
From Verif Require Import Fit_Model Fit_Spec Opt_Model Finish_Model Finish_Spec Chain_Spec Chain_Proof.
Set Implicit Arguments. Unset Strict Implicit.
Import ListNotations.
Local Open Scope list_scope.

Lemma same_shape T (bs bs' : list (sblock T)) : SameShape bs bs' -> shape bs' = shape bs.
Proof.
  unfold SameShape, shape. induction 1 as [|b b' bs bs' Hb HF IH]; [reflexivity|]. cbn [map]. rewrite IH. f_equal.
  induction Hb as [|f f' fs fs' (E1 & E2 & E3 & E4) HFf IHf]; [reflexivity|]. cbn [map]. now rewrite IHf, E1, E2, E3, E4.
Qed.
Lemma good_shape T (bs bs' : list (sblock T)) : shape bs' = shape bs -> GoodModel bs -> GoodModel bs'.
Proof.
  intros H (G1 & G2 & G3). destruct (shape_nonempty H (conj G1 G2)) as [A B]. split; [exact A|]. split; [exact B|].
  apply (same_Forall (shape_all H) (p := fun f => Sized f /\ GoodLabel (s_label f) /\ GoodOpts (s_opts f))); [|exact G3].
  intros f f' (E1 & E2 & E3 & E4) ((c & C1 & C2 & C3) & L & O). rewrite E2, E3. split; [|split; assumption]. exists c. rewrite E1, E4. auto.
Qed.
Lemma build_shape T psf (bs bs' : list (sblock T)) : shape bs' = shape bs ->
  AddFunctions psf (map s_name (sall bs')) (map s_label (sall bs')) (sstarts bs') (map s_opts (sall bs')) =
  AddFunctions psf (map s_name (sall bs)) (map s_label (sall bs)) (sstarts bs) (map s_opts (sall bs)).
Proof.
  intros H. rewrite (shape_starts H).
  rewrite (same_map (shape_all H) (p := s_name) (p' := s_name)) by (intros f f' (E & _); exact E).
  rewrite (same_map (shape_all H) (p := s_label) (p' := s_label)) by (intros f f' (_ & E & _); exact E).
  rewrite (same_map (shape_all H) (p := s_opts) (p' := s_opts)) by (intros f f' (_ & _ & E & _); exact E). reflexivity.
Qed.
Lemma answered_ends T (N : Num T) IS (create : IS -> list T -> res (IS * list T)) A s (Q : A -> Prop) q a i i' :
  Answered N create s i q a i' -> EndsIn Q q -> Q a.
Proof. induction 1; cbn [EndsIn]; auto. Qed.
