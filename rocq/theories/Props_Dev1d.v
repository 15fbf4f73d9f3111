(** C103: deviates of a profile, with masks and bootstrap resampling. *)
From Coq Require Import Reals Lra List Arith ZArith Lia Bool.
From Verif Require Import Base Num LM_QR Dev1d_Model.
Import ListNotations.
Set Implicit Arguments.
Unset Strict Implicit.
Local Open Scope nat_scope.

(** ** Specification *)

(** is point z used? format 10: 0 is good; format 20: 0 is bad; no mask: all are used *)
Definition used (mask : option (Z * list R)) (z : nat) : bool :=
  match mask with
  | None => true
  | Some (format, v) =>
      if (format =? 10)%Z then (if Rle_dec (nth z v 0%R) 0 then true else false)
      else (if Rle_dec 1 (nth z v 0%R) then true else false)
  end.
Definition deviate (data sigmas model : list R) (offset : nat) (mask : option (Z * list R)) (i : nat) : R :=
  if used mask i then ((nth i data 0 - nth (offset + i) model 0) / nth i sigmas 0)%R else 0%R.
Definition good_mask (mask : option (Z * list R)) (n : nat) : Prop :=
  match mask with None => True | Some (format, v) => (format = 10 \/ format = 20)%Z /\ length v = n end.

(** ** Proofs *)
Lemma deviates_ok T (N : Num T) (d0 : T) data weights model offset b y :
  length weights = length data -> offset + length data <= length model -> length y = length data ->
  match b with Some b => length b = length data /\ Forall (fun i => i < length data) b | None => True end ->
  exists out, ComputeDeviates1D N data weights model offset b y = Ok out /\ length out = length data /\
    forall z, z < length data ->
      let i := match b with Some b => nth z b 0 | None => z end in
      nth z out d0 = nmul N (nth i weights d0) (nsub N (nth i data d0) (nth (offset + i) model d0)).
Proof.
  intros Lw Lm Ly Hb. unfold ComputeDeviates1D.
  match goal with |- context [for_ (length data) ?f y] =>
    destruct (@for_inv (list T) (fun k s => length s = length data /\ forall z, z < k ->
      let i := match b with Some b => nth z b 0 | None => z end in
      nth z s d0 = nmul N (nth i weights d0) (nsub N (nth i data d0) (nth (offset + i) model d0))) f (length data) y)
      as (out & E & L & V) end.
  - split; [exact Ly | intros; lia].
  - intros k s Hk [Ls Vs].
    assert (Ei : exists i, match b with Some b => get b k | None => Ok k end = Ok i /\ i < length data /\
              i = match b with Some b => nth k b 0 | None => k end).
    { destruct b as [b|]; [| exists k; auto]. destruct Hb as [Lb Fb]. exists (nth k b 0).
      rewrite (@get_nth nat 0) by lia. split; [reflexivity|]. split; [| reflexivity].
      rewrite Forall_forall in Fb. apply Fb. apply nth_In. lia. }
    destruct Ei as (i & Ei & Hi & Di). rewrite Ei. cbn [bind].
    rewrite !(@get_nth T d0) by lia. cbn [bind]. rewrite set_lt by lia. eexists; split; [reflexivity|].
    rewrite upd_length. split; [exact Ls|]. intros z Hz. rewrite nth_upd.
    destruct (Nat.eqb_spec k z) as [->|Ne].
    + assert (z <? length s = true) as -> by (apply Nat.ltb_lt; lia). cbn [andb]. rewrite <- Di. reflexivity.
    + cbn [andb]. apply Vs. lia.
  - exists out. auto.
Qed.

Lemma weights_length T (N : Num T) data sigmas mask w n :
  length sigmas = length data -> match mask with Some (_, v) => length v = length data | None => True end ->
  setup1D N data sigmas mask = Ok (w, n) -> length w = length data.
Proof.
  intros Ls Lm. unfold setup1D.
  assert (H : forall m k, length m = length data -> Ok (FinalSetupForFitting1D N data (AddErrorVector1D N sigmas) m k) = Ok (w, n) -> length w = length data).
  { intros m k Hm E. injection E as E _. subst w. unfold AddErrorVector1D. rewrite map_length, combine_length, !map_length, combine_length. lia. }
  destruct mask as [[f v]|].
  - unfold AddMaskVector1D. destruct (f =? MASK_ZERO_IS_GOOD)%Z; [| destruct (f =? MASK_ZERO_IS_BAD)%Z; [| discriminate]];
      cbn [bind fst snd]; apply H; rewrite map_length; exact Lm.
  - cbn [bind fst snd]. apply H. apply map_length.
Qed.

Lemma nth_map2 A B D (f : A * B -> D) a b i da db dd : i < length a -> length a = length b ->
  nth i (map f (combine a b)) dd = f (nth i a da, nth i b db).
Proof.
  intros Hi L. rewrite (nth_indep _ dd (f (da, db))) by (rewrite map_length, combine_length; lia).
  rewrite (map_nth f). rewrite combine_nth by exact L. reflexivity.
Qed.
Lemma nth_map1 A D (f : A -> D) a i da dd : i < length a -> nth i (map f a) dd = f (nth i a da).
Proof. intros Hi. rewrite (nth_indep _ dd (f da)) by (rewrite map_length; lia). apply map_nth. Qed.

(** in exact arithmetic: the weights *)
Lemma weights_R data sigmas mask :
  length sigmas = length data -> good_mask mask (length data) ->
  exists w n, setup1D NumR data sigmas mask = Ok (w, n) /\ length w = length data /\
    (mask = None -> n = length data) /\
    forall i, i < length data -> nth i w 0%R = if used mask i then (1 / nth i sigmas 0)%R else 0%R.
Proof.
  intros Ls Gm.
  assert (K : forall m : list R, length m = length data -> (forall i, i < length data -> nth i m 0%R = if used mask i then 1%R else 0%R) ->
    forall k, let r := FinalSetupForFitting1D NumR data (AddErrorVector1D NumR sigmas) m k in
    length (fst r) = length data /\ snd r = k /\
    forall i, i < length data -> nth i (fst r) 0%R = if used mask i then (1 / nth i sigmas 0)%R else 0%R).
  { intros m Lm Vm k. unfold FinalSetupForFitting1D, AddErrorVector1D. cbn [fst snd].
    split; [rewrite map_length, combine_length, !map_length, combine_length; lia|]. split.
    - replace (filter _ (combine m data)) with (@nil (R * R)); [cbn; lia|]. symmetry.
      induction (combine m data) as [|x l IH]; [reflexivity|]. cbn [filter].
      replace (nfin NumR (snd x)) with true by reflexivity. rewrite andb_false_r. exact IH.
    - intros i Hi. rewrite (@nth_map2 _ _ _ _ _ _ _ 0%R 0%R) by (rewrite ?map_length, ?combine_length; lia). cbn [fst snd].
      rewrite (@nth_map2 _ _ _ _ m data i 0%R 0%R 0%R) by lia. cbn [fst snd].
      rewrite (@nth_map1 _ _ _ sigmas i 0%R 0%R) by lia.
      replace (nfin NumR (nth i data 0%R)) with true by reflexivity. rewrite andb_false_r.
      rewrite (Vm i Hi). cbn [nmul ndiv nofZ NumR]. 
      replace (nfin NumR _) with true by reflexivity. cbn [negb andb]. destruct (used mask i); lra. }
  unfold setup1D. destruct mask as [[f v]|].
  - destruct Gm as [Gf Gv]. unfold AddMaskVector1D.
    destruct Gf as [-> | ->]; cbn [Z.eqb MASK_ZERO_IS_GOOD MASK_ZERO_IS_BAD Pos.eqb bind fst snd].
    + match goal with |- context [FinalSetupForFitting1D NumR data _ ?m ?kk] => specialize (K m ltac:(rewrite map_length; exact Gv));
        match type of K with ?P -> _ => assert (HP : P); [| destruct (K HP kk) as (A & B & C0)] end end.
      { intros i Hi. rewrite (@nth_map1 _ _ _ v i 0%R 0%R) by lia. cbn [used]. change (10 =? 10)%Z with true. cbv iota.
        cbn [nltb nofZ NumR]. unfold Rltb. destruct (Rlt_dec 0 (nth i v 0%R)), (Rle_dec (nth i v 0%R) 0); try reflexivity; lra. }
      eexists _, _. split; [apply f_equal; apply surjective_pairing|]. split; [exact A|]. split; [discriminate | exact C0].
    + match goal with |- context [FinalSetupForFitting1D NumR data _ ?m ?kk] => specialize (K m ltac:(rewrite map_length; exact Gv));
        match type of K with ?P -> _ => assert (HP : P); [| destruct (K HP kk) as (A & B & C0)] end end.
      { intros i Hi. rewrite (@nth_map1 _ _ _ v i 0%R 0%R) by lia. cbn [used]. change (20 =? 10)%Z with false. cbv iota.
        cbn [nltb nofZ NumR]. unfold Rltb. destruct (Rlt_dec (nth i v 0%R) 1), (Rle_dec 1 (nth i v 0%R)); try reflexivity; lra. }
      eexists _, _. split; [apply f_equal; apply surjective_pairing|]. split; [exact A|]. split; [discriminate | exact C0].
  - cbn [bind fst snd].
    match goal with |- context [FinalSetupForFitting1D NumR data _ ?m ?kk] => specialize (K m ltac:(apply map_length));
        match type of K with ?P -> _ => assert (HP : P); [| destruct (K HP kk) as (A & B & C0)] end end.
    { intros i Hi. rewrite (@nth_map1 _ _ _ data i 0%R 0%R) by lia. reflexivity. }
    eexists _, _. split; [apply f_equal; apply surjective_pairing|]. split; [exact A|]. split; [intros _; exact B | exact C0].
Qed.

(** ** C103 *)

(** In a fit, point z contributes its distance from the model in units of its error, and 0 if it is masked. *)
Theorem C103_deviates : forall (data sigmas model y : list R) (offset : nat) (mask : option (Z * list R)),
  length sigmas = length data -> good_mask mask (length data) -> offset + length data <= length model -> length y = length data ->
  exists w n out, setup1D NumR data sigmas mask = Ok (w, n) /\
    ComputeDeviates1D NumR data w model offset None y = Ok out /\ length out = length data /\
    forall z, z < length data -> nth z out 0%R = deviate data sigmas model offset mask z.
Proof.
  intros data sigmas model y offset mask Ls Gm Lm Ly.
  destruct (weights_R Ls Gm) as (w & n & E & Lw & _ & V).
  destruct (@deviates_ok R NumR 0%R data w model offset None y Lw Lm Ly I) as (out & Eo & Lo & Vo).
  exists w, n, out. split; [exact E|]. split; [exact Eo|]. split; [exact Lo|]. intros z Hz.
  rewrite (Vo z Hz). cbv zeta. rewrite (V z Hz). unfold deviate. cbn [nmul nsub NumR]. destruct (used mask z); unfold Rdiv; ring.
Qed.
Print Assumptions C103_deviates.

(** In a bootstrap round without a mask, contribution z is that of the point drawn for z. *)
Theorem C103_bootstrap_partial : forall (data sigmas model y : list R) (offset : nat) (drawn : list nat),
  length sigmas = length data -> offset + length data <= length model -> length y = length data ->
  Forall (fun i => i < length data) drawn ->
  exists w n, setup1D NumR data sigmas None = Ok (w, n) /\
    (length drawn = n -> exists out, ComputeDeviates1D NumR data w model offset (Some drawn) y = Ok out /\ length out = length data /\
      forall z, z < length data -> nth z out 0%R = deviate data sigmas model offset None (nth z drawn 0)).
Proof.
  intros data sigmas model y offset drawn Ls Lm Ly Fd.
  destruct (@weights_R data sigmas None Ls I) as (w & n & E & Lw & En & V). specialize (En eq_refl).
  exists w, n. split; [exact E|]. intros Ld.
  destruct (@deviates_ok R NumR 0%R data w model offset (Some drawn) y Lw Lm Ly (conj (eq_trans Ld En) Fd)) as (out & Eo & Lo & Vo).
  exists out. split; [exact Eo|]. split; [exact Lo|]. intros z Hz. rewrite (Vo z Hz). cbv zeta.
  assert (Hi : nth z drawn 0 < length data). { rewrite Forall_forall in Fd. apply Fd. apply nth_In. lia. }
  rewrite (V _ Hi). unfold deviate. cbn [used nmul nsub NumR]. unfold Rdiv; ring.
Qed.
Print Assumptions C103_bootstrap_partial.

(** With a mask that masks a point, every bootstrap round reads behind the end of the indices drawn, in every arithmetic. *)
Theorem C103_masked_refuted : forall (T : Type) (N : Num T) (data sigmas model y v w : list T) (n offset : nat) (drawn : list nat),
  length sigmas = length data -> length v = length data -> offset + length data <= length model -> length y = length data ->
  Exists (fun x => nltb N (nofZ N 0) x = true) v ->
  setup1D N data sigmas (Some (10%Z, v)) = Ok (w, n) ->
  length drawn = n -> Forall (fun i => i < length data) drawn ->
  ComputeDeviates1D N data w model offset (Some drawn) y = Undef.
Proof.
  intros T N data sigmas model y v w n offset drawn Ls Lv Lm Ly Ex E Ld Fd.
  assert (Lw : length w = length data) by (eapply weights_length; [exact Ls | | exact E]; exact Lv).
  assert (Hn : n < length data).
  { unfold setup1D in E. cbn [AddMaskVector1D Z.eqb MASK_ZERO_IS_GOOD Pos.eqb bind fst snd] in E.
    unfold AddMaskVector1D in E. change (10 =? MASK_ZERO_IS_GOOD)%Z with true in E. cbn [bind fst snd] in E.
    injection E as _ E. subst n.
    assert (F : length (filter (fun v => negb (nltb N (nofZ N 0) v)) v) < length v).
    { clear - Ex. assert (G : forall l : list T, length (filter (fun v => negb (nltb N (nofZ N 0) v)) l) <= length l).
      { induction l as [|x l IH]; [auto|]. cbn [filter length]. destruct (negb _); cbn [length]; lia. }
      induction Ex as [x l H | x l H IH]; cbn [filter length].
      - rewrite H. cbn [negb]. specialize (G l). lia.
      - destruct (negb _); cbn [length]; lia. }
    lia. }
  unfold ComputeDeviates1D. set (f := fun z yResults => _).
  destruct (@for_inv (list T) (fun k s => length s = length data) f n y) as (s & Es & Lsn).
  - exact Ly.
  - intros k s Hk Hs. unfold f. rewrite (@get_nth nat 0) by lia. cbn [bind].
    assert (Hi : nth k drawn 0 < length data). { rewrite Forall_forall in Fd. apply Fd. apply nth_In. lia. }
    destruct data as [|d0 data']; [cbn in Hi; lia|].
    rewrite !(@get_nth T d0) by lia. cbn [bind]. rewrite set_lt by lia. eexists; split; [reflexivity|]. now rewrite upd_length.
  - assert (B : for_ (S n) f y = Undef).
    { rewrite for_S, Es. cbn [bind]. unfold f. unfold get at 1.
      replace (nth_error drawn n) with (@None nat) by (symmetry; apply nth_error_None; lia). reflexivity. }
    replace (length data) with (S n + (length data - S n)) by lia.
    unfold for_ in *. rewrite for_from_app, B. reflexivity.
Qed.
Print Assumptions C103_masked_refuted.

(** ** A case: three points, the second masked *)
Example C103_case :
  exists w n, setup1D NumR [5; 6; 7]%R [1; 2; 1]%R (Some (10%Z, [0; 1; 0]%R)) = Ok (w, n) /\ n = 2 /\
    Exists (fun x => nltb NumR (nofZ NumR 0) x = true) [0; 1; 0]%R /\
    ComputeDeviates1D NumR [5; 6; 7]%R w [1; 1; 1]%R 0 (Some [0; 2]) [0; 0; 0]%R = Undef.
Proof.
  assert (A : nltb NumR (nofZ NumR 0) 1%R = true) by (cbn [nltb nofZ NumR]; unfold Rltb; destruct (Rlt_dec 0 1); [reflexivity | lra]).
  assert (B : nltb NumR (nofZ NumR 0) 0%R = false) by (cbn [nltb nofZ NumR]; unfold Rltb; destruct (Rlt_dec 0 0); [lra | reflexivity]).
  assert (Ex : Exists (fun x => nltb NumR (nofZ NumR 0) x = true) [0; 1; 0]%R) by (right; left; exact A).
  destruct (@weights_R [5; 6; 7]%R [1; 2; 1]%R (Some (10%Z, [0; 1; 0]%R)) eq_refl) as (w & n & E & _).
  { split; [left; reflexivity | reflexivity]. }
  exists w, n. split; [exact E|].
  assert (Hn : n = 2).
  { unfold setup1D, AddMaskVector1D in E. change (10 =? MASK_ZERO_IS_GOOD)%Z with true in E.
    cbn [bind fst snd filter map] in E. rewrite A, B in E. cbn [negb length] in E.
    injection E as _ E. rewrite <- E. cbn [combine filter fst snd]. cbn [nfin NumR negb]. rewrite !andb_false_r. reflexivity. }
  split; [exact Hn|]. split; [exact Ex|].
  apply (@C103_masked_refuted R NumR [5; 6; 7]%R [1; 2; 1]%R [1; 1; 1]%R [0; 0; 0]%R [0; 1; 0]%R w n 0 [0; 2]); auto.
  repeat constructor.
Qed.
