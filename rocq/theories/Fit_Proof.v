(** Proofs about the data/mask/weight/statistic model. *)
From Coq Require Import Reals ZArith List Bool Lia Lra.
From Verif Require Import Base Num Sums Stats_Model Fit_Model Fit_Spec.
Import ListNotations.
Set Implicit Arguments. Unset Strict Implicit.
Local Open Scope nat_scope.

Definition cnt (p : nat -> bool) (n : nat) : Z := Z.of_nat (length (filter p (seq 0 n))).
Lemma cnt_S p n : cnt p (S n) = (cnt p n + (if p n then 1 else 0))%Z.
Proof.
  unfold cnt. rewrite seq_S, filter_app, app_length. cbn [filter Nat.add].
  destruct (p n); cbn [length]; lia.
Qed.
Lemma cnt_ext p q n : (forall z, z < n -> p z = q z) -> cnt p n = cnt q n.
Proof.
  intros H. induction n as [|n IH]; [reflexivity|]. rewrite !cnt_S, IH by (intros; apply H; lia).
  now rewrite H by lia.
Qed.
Lemma cnt_bounds p n : (0 <= cnt p n <= Z.of_nat n)%Z.
Proof. induction n as [|n IH]; [cbn; lia|]. rewrite cnt_S. destruct (p n); lia. Qed.
Lemma cnt_pos p n : (1 <= cnt p n)%Z <-> exists z, z < n /\ p z = true.
Proof.
  induction n as [|n IH].
  - split; [cbn; lia|intros (z & H & _); lia].
  - rewrite cnt_S. pose proof (cnt_bounds p n). destruct (p n) eqn:E.
    + split; [|lia]. intros _. exists n. split; auto.
    + rewrite Z.add_0_r, IH. split; intros (z & Hz & Pz); exists z; split; auto; try lia.
      destruct (Nat.eq_dec z n); [congruence|lia].
Qed.
Lemma cnt_all p n : (forall z, z < n -> p z = true) -> cnt p n = Z.of_nat n.
Proof.
  intros H. induction n as [|n IH]; [reflexivity|]. rewrite cnt_S, IH, H by (intros; try apply H; lia). lia.
Qed.

Lemma map_nth_seq A (l : list A) d : map (fun k => nth k l d) (seq 0 (length l)) = l.
Proof.
  induction l as [|a l IH]; [reflexivity|]. cbn [length seq map nth]. f_equal.
  rewrite <- seq_shift, map_map. exact IH.
Qed.
Lemma nth_skipn A (l : list A) d : forall n k, nth k (skipn n l) d = nth (n + k) l d.
Proof. induction l as [|a l IH]; intros [|n] k; cbn [skipn Nat.add nth]; auto. destruct k; reflexivity. Qed.

Lemma firstn_snoc A (d : A) (l : list A) : forall i, i < length l -> firstn (S i) l = firstn i l ++ [nth i l d].
Proof.
  induction l as [|a l IH]; intros i Hi; cbn [length] in Hi; [lia|].
  destruct i as [|i]; [reflexivity|]. change (firstn (S (S i)) (a :: l)) with (a :: firstn (S i) l).
  rewrite IH by lia. reflexivity.
Qed.

Section Gen.
Variable T : Type.
Variable N : Num T.
Notation at_ := (at_ N).

Lemma at_get l z : z < length l -> get l z = Ok (at_ l z).
Proof. intros H. unfold Fit_Spec.at_. now rewrite (@get_nth T (nofZ N 0) l z H). Qed.
Lemma at_upd l i x z : i < length l -> at_ (upd l i x) z = if i =? z then x else at_ l z.
Proof.
  intros H. unfold Fit_Spec.at_. destruct (Nat.lt_ge_cases z (length l)) as [L|L].
  - assert (E : nth_error (upd l i x) z = Some (nth z (upd l i x) (nofZ N 0))) by (apply nth_error_nth'; now rewrite upd_length).
    rewrite nth_error_upd in E. apply Nat.ltb_lt in H. rewrite H, andb_true_r in E.
    destruct (i =? z); [congruence|]. rewrite (nth_error_nth' l (nofZ N 0) L) in E. congruence.
  - rewrite !nth_overflow; auto; [|now rewrite upd_length].
    destruct (Nat.eqb_spec i z); [lia|auto].
Qed.
Lemma at_ext (l1 l2 : list T) : length l1 = length l2 -> (forall z, z < length l1 -> at_ l1 z = at_ l2 z) -> l1 = l2.
Proof. intros H1 H2. apply (nth_ext _ _ (nofZ N 0) (nofZ N 0)); auto. Qed.
Lemma at_repeat x n z : z < n -> at_ (repeat x n) z = x.
Proof.
  intros H. unfold Fit_Spec.at_. revert z H. induction n as [|n IH]; intros [|z] H; cbn [repeat nth]; try lia; auto.
  apply IH. lia.
Qed.

Lemma each_ok n f v (g : nat -> T -> T) :
  n <= length v ->
  (forall z, z < n -> f z (at_ v z) = Ok (g z (at_ v z))) ->
  exists v', each n f v = Ok v' /\ length v' = length v /\
    (forall z, z < n -> at_ v' z = g z (at_ v z)) /\ (forall z, n <= z -> at_ v' z = at_ v z).
Proof.
  intros L F. unfold each.
  destruct (@for_inv (list T) (fun k v' => length v' = length v /\
     (forall z, z < k -> at_ v' z = g z (at_ v z)) /\ (forall z, k <= z -> at_ v' z = at_ v z))
     (fun z v => do x <- get v z; do y <- f z x; set v z y) n v) as (v' & E & P).
  - split; [auto|split; [lia|auto]].
  - intros i s Hi (Ls & A & B). rewrite at_get by lia. cbn [bind]. rewrite B by lia. rewrite F by auto. cbn [bind].
    rewrite set_lt by lia. eexists. split; [reflexivity|]. rewrite upd_length. split; [auto|]. split; intros z Hz.
    + rewrite at_upd by lia. destruct (Nat.eqb_spec i z); [now subst|]. apply A. lia.
    + rewrite at_upd by lia. destruct (Nat.eqb_spec i z); [lia|]. apply B. lia.
  - exists v'. auto.
Qed.

Lemma mask_loop_ok n bad pix :
  n <= length pix ->
  exists m, mask_loop N n bad pix = Ok (m, cnt (fun z => negb (bad (at_ pix z))) n) /\ length m = length pix /\
    forall z, z < n -> at_ m z = if bad (at_ pix z) then nofZ N 0 else nofZ N 1.
Proof.
  intros L. unfold mask_loop.
  match goal with |- context [for_ n ?f ?s] => destruct (@for_inv _ (fun k '(m, nv) => length m = length pix /\
     nv = cnt (fun z => negb (bad (at_ pix z))) k /\
     (forall z, z < k -> at_ m z = if bad (at_ pix z) then nofZ N 0 else nofZ N 1) /\
     (forall z, k <= z -> at_ m z = at_ pix z)) f n s) as ([m nv] & E & P) end.
  - split; [auto|]. split; [reflexivity|]. split; [lia|auto].
  - intros i [m nv] Hi (Lm & Nv & A & B). rewrite at_get by lia. cbn [bind]. rewrite B by lia.
    destruct (bad (at_ pix i)) eqn:Eb; rewrite set_lt by lia; cbn [bind]; eexists; (split; [reflexivity|]);
      cbv beta iota; rewrite upd_length, cnt_S, Eb; (split; [auto|]); (split; [cbn [negb]; lia|]); split; intros z Hz;
      rewrite at_upd by lia; destruct (Nat.eqb_spec i z); subst; try (rewrite Eb; reflexivity); try lia;
      try (apply A; lia); apply B; lia.
  - destruct P as (Lm & Nv & A & B). subst nv. exists m. auto.
Qed.

Hypothesis H01 : nltb N (nofZ N 0) (nofZ N 1) = true.
Hypothesis H00 : nltb N (nofZ N 0) (nofZ N 0) = false.

Definition bit (b : bool) : T := if b then nofZ N 1 else nofZ N 0.
Lemma ltb_bit b : nltb N (nofZ N 0) (bit b) = b.
Proof. destruct b; auto. Qed.

(** masks made of ones and zeros *)
Definition is_mask (m : list T) (g : nat -> bool) (n : nat) : Prop :=
  length m = n /\ forall z, z < n -> at_ m z = bit (g z).

Lemma mnd_ok o g : is_mask (maskVector o) g (nDataVals o) -> length (dataVector o) = nDataVals o ->
  nValid o = cnt g (nDataVals o) ->
  let g' := fun z => g z && nfin N (at_ (dataVector o) z) in
  exists m', mask_nonfinite_data N o = Ok (with_mask o (maskExists o) m' (cnt g' (nDataVals o))) /\
    is_mask m' g' (nDataVals o).
Proof.
  intros (Lm & Hm) Ld Nv g'. set (n := nDataVals o) in *. unfold mask_nonfinite_data. fold n.
  match goal with |- context [for_ n ?f ?s] => destruct (@for_inv _ (fun k '(m, nv) => length m = n /\
     nv = (cnt g n - cnt g k + cnt g' k)%Z /\
     (forall z, z < k -> at_ m z = bit (g' z)) /\
     (forall z, k <= z < n -> at_ m z = bit (g z))) f n s) as ([m nv] & E & P) end.
  - split; [auto|]. split; [rewrite Nv; change (cnt g 0) with 0%Z; change (cnt g' 0) with 0%Z; lia|]. split; [lia|]. intros z Hz. apply Hm. lia.
  - intros i [m nv] Hi (Lm' & Nv' & A & B). rewrite at_get by lia. cbn [bind]. rewrite B by lia. rewrite ltb_bit.
    destruct (g i) eqn:Eg.
    + rewrite at_get by lia. cbn [bind]. destruct (nfin N (at_ (dataVector o) i)) eqn:Ef; cbn [negb].
      * eexists. split; [reflexivity|]. cbv beta iota. rewrite !cnt_S. unfold g' at 2. rewrite Eg, Ef. cbn [andb].
        split; [auto|]. split; [lia|]. split; intros z Hz; [|apply B; lia].
        destruct (Nat.eq_dec z i) as [->|]; [|apply A; lia]. rewrite B by lia. unfold g'. now rewrite Eg, Ef.
      * rewrite set_lt by lia. cbn [bind]. eexists. split; [reflexivity|]. cbv beta iota. rewrite upd_length, !cnt_S.
        unfold g' at 2. rewrite Eg, Ef. cbn [andb]. split; [auto|]. split; [lia|]. split; intros z Hz; rewrite at_upd by lia;
          destruct (Nat.eqb_spec i z); try lia.
        -- subst z. unfold g'. rewrite Eg, Ef. reflexivity.
        -- apply A. lia.
        -- apply B. lia.
    + eexists. split; [reflexivity|]. cbv beta iota. rewrite !cnt_S. unfold g' at 2. rewrite Eg. cbn [andb].
      split; [auto|]. split; [lia|]. split; intros z Hz; [|apply B; lia].
      destruct (Nat.eq_dec z i) as [->|]; [|apply A; lia]. rewrite B by lia. unfold g'. now rewrite Eg.
  - destruct P as (Lm' & Nv' & A & B). rewrite E. cbn [bind fst snd]. exists m. split; [|split; auto].
    replace nv with (cnt g' n) by lia. reflexivity.
Qed.

Lemma mnw_ok o g : is_mask (maskVector o) g (nDataVals o) -> length (weightVector o) = nDataVals o ->
  nValid o = cnt g (nDataVals o) ->
  let g' := fun z => g z && nfin N (at_ (weightVector o) z) in
  exists m' w', mask_nonfinite_weights N o
      = Ok (with_weights (with_mask o (maskExists o) m' (cnt g' (nDataVals o))) (weightValsSet o) (externalErrors o) w') /\
    is_mask m' g' (nDataVals o) /\ length w' = nDataVals o /\
    forall z, z < nDataVals o -> at_ w' z = if g z && negb (nfin N (at_ (weightVector o) z)) then nofZ N 0 else at_ (weightVector o) z.
Proof.
  intros (Lm & Hm) Lw Nv g'. set (n := nDataVals o) in *. unfold mask_nonfinite_weights. fold n.
  match goal with |- context [for_ n ?f ?s] => destruct (@for_inv _ (fun k '(m, w, nv) => length m = n /\ length w = n /\
     nv = (cnt g n - cnt g k + cnt g' k)%Z /\
     (forall z, z < k -> at_ m z = bit (g' z)) /\
     (forall z, k <= z < n -> at_ m z = bit (g z)) /\
     (forall z, z < k -> at_ w z = if g z && negb (nfin N (at_ (weightVector o) z)) then nofZ N 0 else at_ (weightVector o) z) /\
     (forall z, k <= z -> at_ w z = at_ (weightVector o) z)) f n s) as ([[m w] nv] & E & P) end.
  - split; [auto|]. split; [auto|]. split; [rewrite Nv; change (cnt g 0) with 0%Z; change (cnt g' 0) with 0%Z; lia|]. split; [lia|]. split; [intros z Hz; apply Hm; lia|].
    split; [lia|auto].
  - intros i [[m w] nv] Hi (Lm' & Lw' & Nv' & A & B & C & D). rewrite at_get by lia. cbn [bind]. rewrite B by lia. rewrite ltb_bit.
    destruct (g i) eqn:Eg.
    + rewrite at_get by lia. cbn [bind]. rewrite D by lia. destruct (nfin N (at_ (weightVector o) i)) eqn:Ef; cbn [negb].
      * eexists. split; [reflexivity|]. cbv beta iota. rewrite !cnt_S. unfold g' at 2. rewrite Eg, Ef. cbn [andb].
        split; [auto|]. split; [auto|]. split; [lia|]. split; [intros z Hz|split; [intros z Hz; apply B; lia|split; [intros z Hz|intros z Hz; apply D; lia]]].
        -- destruct (Nat.eq_dec z i) as [->|]; [|apply A; lia]. rewrite B by lia. unfold g'. now rewrite Eg, Ef.
        -- destruct (Nat.eq_dec z i) as [->|]; [|apply C; lia]. rewrite D by lia. now rewrite Eg, Ef.
      * rewrite !set_lt by lia. cbn [bind]. rewrite ?set_lt by lia. cbn [bind]. eexists. split; [reflexivity|]. cbv beta iota.
        rewrite !upd_length, !cnt_S. unfold g' at 2. rewrite Eg, Ef. cbn [andb]. split; [auto|]. split; [auto|]. split; [lia|].
        repeat split; intros z Hz; rewrite at_upd by lia; destruct (Nat.eqb_spec i z); try lia; subst.
        -- unfold g'. rewrite Eg, Ef. reflexivity.
        -- apply A. lia.
        -- apply B. lia.
        -- rewrite Eg, Ef. reflexivity.
        -- apply C. lia.
        -- apply D. lia.
    + eexists. split; [reflexivity|]. cbv beta iota. rewrite !cnt_S. unfold g' at 2. rewrite Eg. cbn [andb].
      split; [auto|]. split; [auto|]. split; [lia|]. split; [intros z Hz|split; [intros z Hz; apply B; lia|split; [intros z Hz|intros z Hz; apply D; lia]]].
      * destruct (Nat.eq_dec z i) as [->|]; [|apply A; lia]. rewrite B by lia. unfold g'. now rewrite Eg.
      * destruct (Nat.eq_dec z i) as [->|]; [|apply C; lia]. rewrite D by lia. now rewrite Eg.
  - destruct P as (Lm' & Lw' & Nv' & A & B & C & D). rewrite E. cbn [bind fst snd]. exists m, w. split; [|split; [split; auto|split; auto]].
    replace nv with (cnt g' n) by lia. reflexivity.
Qed.

Lemma check_ok o g : maskExists o = true -> is_mask (maskVector o) g (nDataVals o) -> length (weightVector o) = nDataVals o ->
  CheckWeightVector N o = Ok (forallb (fun z => negb (g z) || (nfin N (at_ (weightVector o) z) && negb (nltb N (at_ (weightVector o) z) (nofZ N 0))))
                                (seq 0 (nDataVals o))).
Proof.
  intros Me (Lm & Hm) Lw. unfold CheckWeightVector. rewrite Me.
  set (p := fun z => negb (g z) || (nfin N (at_ (weightVector o) z) && negb (nltb N (at_ (weightVector o) z) (nofZ N 0)))).
  match goal with |- context [for_ ?n ?f ?s] => destruct (@for_inv _ (fun k b => b = negb (forallb p (seq 0 k))) f n s) as (b & E & P) end.
  - reflexivity.
  - intros i b Hi Hb. rewrite at_get by lia. cbn [bind]. rewrite Hm by lia. rewrite ltb_bit.
    rewrite seq_S, forallb_app. cbn [Nat.add forallb]. rewrite andb_true_r, negb_andb, <- Hb.
    unfold p. destruct (g i); cbn [negb orb].
    + rewrite at_get by lia. cbn [bind]. eexists. split; [reflexivity|].
      rewrite negb_andb, negb_involutive, orb_assoc. reflexivity.
    + exists b. rewrite orb_false_r. auto.
  - rewrite E. cbn [bind]. rewrite P, negb_involutive. reflexivity.
Qed.

Lemma vet_ok o g : is_mask (maskVector o) g (nDataVals o) -> length (dataVector o) = nDataVals o ->
  (forall z, z < nDataVals o -> g z = true -> nfin N (at_ (dataVector o) z) = true) ->
  exists d', VetDataVector N o = Ok (true, with_data o d') /\ length d' = nDataVals o /\
    forall z, z < nDataVals o -> at_ d' z = if nfin N (at_ (dataVector o) z) then at_ (dataVector o) z else nofZ N 0.
Proof.
  intros (Lm & Hm) Ld G. set (n := nDataVals o) in *. unfold VetDataVector. fold n.
  match goal with |- context [for_ n ?f ?s] => destruct (@for_inv _ (fun k '(d, bad) => length d = n /\ bad = false /\
     (forall z, z < k -> at_ d z = if nfin N (at_ (dataVector o) z) then at_ (dataVector o) z else nofZ N 0) /\
     (forall z, k <= z -> at_ d z = at_ (dataVector o) z)) f n s) as ([d bad] & E & P) end.
  - repeat split; auto. lia.
  - intros i [d bad] Hi (Ld' & Hb & A & B). rewrite at_get by lia. cbn [bind]. rewrite B by lia.
    destruct (nfin N (at_ (dataVector o) i)) eqn:Ef; cbn [negb].
    + eexists. split; [reflexivity|]. cbv beta iota. split; [auto|]. split; [auto|]. split; intros z Hz; [|apply B; lia].
      destruct (Nat.eq_dec z i) as [->|]; [|apply A; lia]. rewrite B by lia. now rewrite Ef.
    + rewrite at_get by lia. cbn [bind]. rewrite Hm by lia. rewrite ltb_bit.
      destruct (g i) eqn:Eg; [rewrite G in Ef by auto; discriminate|].
      rewrite set_lt by lia. cbn [bind]. eexists. split; [reflexivity|]. cbv beta iota. rewrite upd_length.
      split; [auto|]. split; [auto|]. split; intros z Hz; rewrite at_upd by lia; destruct (Nat.eqb_spec i z); try lia; subst.
      * now rewrite Ef.
      * apply A. lia.
      * apply B. lia.
  - destruct P as (Ld' & -> & A & B). rewrite E. cbn [bind fst snd negb]. exists d. auto.
Qed.
Lemma apply_ok o g : weightValsSet o = true -> maskExists o = true ->
  is_mask (maskVector o) g (nDataVals o) -> length (weightVector o) = nDataVals o ->
  exists w', ApplyMask N o = Ok (with_weights o true (externalErrors o) w') /\ length w' = nDataVals o /\
    forall z, z < nDataVals o ->
      let v := nmul N (bit (g z)) (at_ (weightVector o) z) in
      at_ w' z = if negb (nfin N v) && neqb N (bit (g z)) (nofZ N 0) then nofZ N 0 else v.
Proof.
  intros Ws Me (Lm & Hm) Lw. unfold ApplyMask. rewrite Ws, Me. cbn [andb].
  match goal with |- context [each ?n ?f ?w0] => destruct (@each_ok n f w0
     (fun z x => let v := nmul N (bit (g z)) x in
        if negb (nfin N v) && neqb N (bit (g z)) (nofZ N 0) then nofZ N 0 else v)) as (w' & E & L & A & B) end.
  - lia.
  - intros z Hz. rewrite at_get by lia. cbn [bind]. rewrite Hm by lia. reflexivity.
  - rewrite E. cbn [bind]. exists w'. split; [reflexivity|]. split; [lia|exact A].
Qed.

(** the state after SetupModelObject *)
Record started (s : setup T) (o : mobj T) : Prop := {
  st_n : nDataVals o = npix s; st_c : nDataColumns o = s_cols s; st_r : nDataRows o = s_rows s;
  st_d : dataVector o = s_data s; st_ds : dataValsSet o = true;
  st_m : if maskExists o then is_mask (maskVector o) (user_good N s) (npix s) /\ nValid o = cnt (user_good N s) (npix s)
         else s_mask s = None /\ nValid o = Z.of_nat (npix s);
  st_ext : externalErrors o = user_errors s;
  st_de : match s_stat s with ChiDataErrors => dataErrors o = true | ChiModelErrors => dataErrors o = false | _ => True end;
  st_me : modelErrors o = match s_stat s with ChiModelErrors => true | _ => false end;
  st_uc : useCash o = match s_stat s with Cash | PMLR => true | _ => false end;
  st_mlr : poissonMLR o = match s_stat s with PMLR => true | _ => false end;
  st_w : match s_stat s with ChiDataErrors => True
         | _ => weightValsSet o = true /\ length (weightVector o) = npix s /\
                forall z, z < npix s -> at_ (weightVector o) z = given_weight N s z end;
  st_x : match s_stat s with Cash | PMLR => extraCash o = repeat (nofZ N 0) (npix s) | _ => True end;
  st_eg : effectiveGain o = total_gain N s; st_nc : nCombined o = nofZ N (s_nCombined s);
  st_sky : originalSky o = s_sky s;
  st_rn : readNoise_adu_squared o
          = ndiv N (nmul N (s_readNoise s) (s_readNoise s)) (nmul N (total_gain N s) (total_gain N s));
  st_conv : match s_psf s with
            | None => doConvolution o = false
            | Some (pc, pr) => doConvolution o = true /\ nPSFColumns o = pc /\ nPSFRows o = pr /\
                               nModelColumns o = s_cols s + 2 * pc /\ nModelRows o = s_rows s + 2 * pr
            end;
  st_bs : doBootstrap o = false }.

Lemma setup_ok s : well_formed N s -> exists o, SetupModelObject N s = Ok o /\ started s o.
Proof.
  intros (Ld & Wm & We & G1 & G2 & G3 & G4 & G5). unfold SetupModelObject.
  set (o0 := AddImageDataVector _ _ _ _).
  unfold AddImageCharacteristics. rewrite G1, G2, G3, G5. apply Z.leb_le in G4. rewrite G4. cbn [andb bind].
  set (o1 := with_characteristics _ _ _ _ _).
  assert (E2 : exists o2, match s_mask s with
     | None => Ok o1
     | Some (pix, ty) => do r <- AddMaskVector N o1 (s_cols s) (s_rows s) pix ty; if (fst r <? 0)%Z then Abort else Ok (snd r)
     end = Ok o2 /\
     (o2 = with_mask o1 (maskExists o2) (maskVector o2) (nValid o2)) /\
     (if maskExists o2 then is_mask (maskVector o2) (user_good N s) (npix s) /\ nValid o2 = cnt (user_good N s) (npix s)
         else s_mask s = None /\ nValid o2 = Z.of_nat (npix s))).
  { destruct (s_mask s) as [[pix ty]|] eqn:Em.
    - destruct Wm as (Lp & Ty). unfold AddMaskVector.
      assert (S1 : nDataColumns o1 = s_cols s) by (unfold o1, o0; destruct (s_psf s) as [[? ?]|]; reflexivity).
      assert (S2 : nDataRows o1 = s_rows s) by (unfold o1, o0; destruct (s_psf s) as [[? ?]|]; reflexivity).
      assert (S3 : nDataVals o1 = npix s) by (unfold o1, o0; destruct (s_psf s) as [[? ?]|]; reflexivity).
      rewrite S1, S2, S3, !Nat.eqb_refl. try (unfold npix at 1; rewrite Nat.eqb_refl). cbn [andb].
      destruct Ty as [-> | ->].
      + change (10 =? MASK_ZERO_IS_GOOD)%Z with true. cbv iota.
        match goal with |- context [mask_loop N ?n ?b ?p] => destruct (@mask_loop_ok n b p) as (m & E & L & A); [lia|] end.
        rewrite E. cbn [bind fst snd]. change (0 <? 0)%Z with false. cbv iota. eexists. split; [reflexivity|]. split; [reflexivity|].
        cbn [maskExists with_mask maskVector nValid].
        assert (UG : forall z, user_good N s z = negb (negb (nfin N (at_ pix z)) || nltb N (nofZ N 0) (at_ pix z))).
        { intros z. unfold user_good. rewrite Em. cbn [Z.eqb Pos.eqb]. now rewrite negb_orb, negb_involutive. }
        split; [split; [lia|]|].
        * intros z Hz. rewrite A by auto. rewrite UG. now destruct (_ || _).
        * apply cnt_ext. intros z _. now rewrite UG.
      + change (20 =? MASK_ZERO_IS_GOOD)%Z with false. change (20 =? MASK_ZERO_IS_BAD)%Z with true. cbv iota.
        match goal with |- context [mask_loop N ?n ?b ?p] => destruct (@mask_loop_ok n b p) as (m & E & L & A); [lia|] end.
        rewrite E. cbn [bind fst snd]. change (0 <? 0)%Z with false. cbv iota. eexists. split; [reflexivity|]. split; [reflexivity|].
        cbn [maskExists with_mask maskVector nValid].
        assert (UG : forall z, user_good N s z = negb (negb (nfin N (at_ pix z)) || nltb N (at_ pix z) (nofZ N 1))).
        { intros z. unfold user_good. rewrite Em. cbn [Z.eqb Pos.eqb]. now rewrite negb_orb, negb_involutive. }
        split; [split; [lia|]|].
        * intros z Hz. rewrite A by auto. rewrite UG. now destruct (_ || _).
        * apply cnt_ext. intros z _. now rewrite UG.
    - exists o1. split; [reflexivity|]. unfold o1, o0. destruct (s_psf s) as [[? ?]|]; (split; [reflexivity|]); cbn; auto. }
  destruct E2 as (o2 & E2 & O2 & M2). rewrite E2. cbn [bind].
  assert (CV : match s_psf s with
            | None => doConvolution o2 = false
            | Some (pc, pr) => doConvolution o2 = true /\ nPSFColumns o2 = pc /\ nPSFRows o2 = pr /\
                               nModelColumns o2 = s_cols s + 2 * pc /\ nModelRows o2 = s_rows s + 2 * pr
            end).
  { rewrite O2. unfold o1, o0. destruct (s_psf s) as [[? ?]|]; cbn; auto. }
  assert (FR : nDataVals o2 = npix s /\ nDataColumns o2 = s_cols s /\ nDataRows o2 = s_rows s /\ dataVector o2 = s_data s /\
     dataValsSet o2 = true /\ externalErrors o2 = false /\ dataErrors o2 = true /\ modelErrors o2 = false /\ useCash o2 = false /\
     poissonMLR o2 = false /\ extraCash o2 = [] /\ effectiveGain o2 = total_gain N s /\ nCombined o2 = nofZ N (s_nCombined s) /\
     originalSky o2 = s_sky s /\ readNoise_adu_squared o2
          = ndiv N (nmul N (s_readNoise s) (s_readNoise s)) (nmul N (total_gain N s) (total_gain N s)) /\ doBootstrap o2 = false).
  { rewrite O2. unfold o1, o0, npix, total_gain. destruct (s_psf s) as [[? ?]|]; cbn; repeat split. }
  clear O2 E2. clearbody o1. destruct FR as (F1 & F2 & F3 & F4 & F5 & F6 & F7 & F8 & F9 & F10 & F11 & F12 & F13 & F14 & F15 & F16).
  destruct (s_stat s) as [| |pix ty| |] eqn:Es.
  - eexists. split; [reflexivity|]. unfold UseCashStatistic. rewrite F11.
    constructor; cbn [with_extra with_weights with_flags nDataVals nDataColumns nDataRows dataVector dataValsSet maskExists maskVector nValid
      externalErrors dataErrors modelErrors useCash poissonMLR weightValsSet weightVector extraCash effectiveGain nCombined originalSky
      readNoise_adu_squared doConvolution nPSFColumns nPSFRows nModelColumns nModelRows doBootstrap]; unfold user_errors; rewrite ?Es; auto.
    rewrite F1. split; [auto|]. split; [apply repeat_length|]. intros z Hz. rewrite at_repeat by auto. unfold given_weight. now rewrite Es.
  - eexists. split; [reflexivity|]. unfold UsePoissonMLR, UseCashStatistic. cbn [with_flags extraCash]. rewrite F11.
    constructor; cbn [with_extra with_weights with_flags nDataVals nDataColumns nDataRows dataVector dataValsSet maskExists maskVector nValid
      externalErrors dataErrors modelErrors useCash poissonMLR weightValsSet weightVector extraCash effectiveGain nCombined originalSky
      readNoise_adu_squared doConvolution nPSFColumns nPSFRows nModelColumns nModelRows doBootstrap]; unfold user_errors; rewrite ?Es; auto.
    rewrite F1. split; [auto|]. split; [apply repeat_length|]. intros z Hz. rewrite at_repeat by auto. unfold given_weight. now rewrite Es.
  - destruct We as (Lp & Ty). unfold AddErrorVector. rewrite F1, F2, F3, !Nat.eqb_refl. try (unfold npix at 1; rewrite Nat.eqb_refl). cbn [andb].
    assert (EW : exists w, length w = npix s /\ (forall z, z < npix s -> at_ w z = given_weight N s z) /\
      (if (ty =? WEIGHTS_ARE_SIGMAS)%Z then
        do w <- each (npix s) (fun _ x => Ok (ndiv N (nofZ N 1) x)) pix; Ok (with_weights o2 true true w)
      else if (ty =? WEIGHTS_ARE_VARIANCES)%Z then
        do w <- each (npix s) (fun _ x => Ok (ndiv N (nofZ N 1) (nsqrt N x))) pix; Ok (with_weights o2 true true w)
      else if (ty =? WEIGHTS_ARE_WEIGHTS)%Z then
        do w <- each (npix s) (fun _ x => Ok (nsqrt N x)) pix; Ok (with_weights o2 true true w)
      else Ok (with_weights o2 false true pix)) = Ok (with_weights o2 true true w)).
    { destruct Ty as [-> | [-> | ->]]; unfold WEIGHTS_ARE_SIGMAS, WEIGHTS_ARE_VARIANCES, WEIGHTS_ARE_WEIGHTS; cbn [Z.eqb Pos.eqb].
      - destruct (@each_ok (npix s) (fun _ x => Ok (ndiv N (nofZ N 1) x)) pix (fun _ x => ndiv N (nofZ N 1) x)) as (w & E & L & A & B); [lia|reflexivity|].
        rewrite E. exists w. split; [lia|]. split; [|reflexivity]. intros z Hz. rewrite A by auto. unfold given_weight. now rewrite Es.
      - destruct (@each_ok (npix s) (fun _ x => Ok (ndiv N (nofZ N 1) (nsqrt N x))) pix (fun _ x => ndiv N (nofZ N 1) (nsqrt N x))) as (w & E & L & A & B); [lia|reflexivity|].
        rewrite E. exists w. split; [lia|]. split; [|reflexivity]. intros z Hz. rewrite A by auto. unfold given_weight. now rewrite Es.
      - destruct (@each_ok (npix s) (fun _ x => Ok (nsqrt N x)) pix (fun _ x => nsqrt N x)) as (w & E & L & A & B); [lia|reflexivity|].
        rewrite E. exists w. split; [lia|]. split; [|reflexivity]. intros z Hz. rewrite A by auto. unfold given_weight. now rewrite Es. }
    destruct EW as (w & Lw & Aw & E). rewrite E. eexists. split; [reflexivity|].
    constructor; cbn [with_extra with_weights with_flags nDataVals nDataColumns nDataRows dataVector dataValsSet maskExists maskVector nValid
      externalErrors dataErrors modelErrors useCash poissonMLR weightValsSet weightVector extraCash effectiveGain nCombined originalSky
      readNoise_adu_squared doConvolution nPSFColumns nPSFRows nModelColumns nModelRows doBootstrap]; unfold user_errors; rewrite ?Es; auto.
  - eexists. split; [reflexivity|]. unfold UseModelErrors.
    constructor; cbn [with_extra with_weights with_flags nDataVals nDataColumns nDataRows dataVector dataValsSet maskExists maskVector nValid
      externalErrors dataErrors modelErrors useCash poissonMLR weightValsSet weightVector extraCash effectiveGain nCombined originalSky
      readNoise_adu_squared doConvolution nPSFColumns nPSFRows nModelColumns nModelRows doBootstrap]; unfold user_errors; rewrite ?Es; auto.
    rewrite F1. split; [auto|]. split; [apply repeat_length|]. intros z Hz. rewrite at_repeat by auto. unfold given_weight. now rewrite Es.
  - eexists. split; [reflexivity|].
    constructor; unfold user_errors; rewrite ?Es; auto.
Qed.
Definition xterm (s : setup T) (d : T) : T :=
  let D := nmul N (total_gain N s) (nadd N d (s_sky s)) in
  if nleb N D (nofZ N 0) then nofZ N 0 else nsub N (nmul N D (nlog N D)) D.

Definition weight_ok (s : setup T) (o : mobj T) : bool :=
  forallb (fun z => negb (usable N s z) ||
     (nfin N (at_ (weightVector o) z) && negb (nltb N (at_ (weightVector o) z) (nofZ N 0)))) (seq 0 (npix s)).

(** the state after FinalSetupForFitting *)
Record prepared (s : setup T) (st : Z) (o : mobj T) : Prop := {
  p_n : nDataVals o = npix s; p_c : nDataColumns o = s_cols s; p_r : nDataRows o = s_rows s;
  p_dl : length (dataVector o) = npix s;
  p_d : forall z, z < npix s -> at_ (dataVector o) z = if nfin N (at_ (s_data s) z) then at_ (s_data s) z else nofZ N 0;
  p_me : maskExists o = true; p_m : is_mask (maskVector o) (usable N s) (npix s);
  p_wl : length (weightVector o) = npix s;
  p_w1 : forall z, z < npix s -> usable N s z = true ->
     at_ (weightVector o) z = (let v := nmul N (nofZ N 1) (given_weight N s z) in
        if negb (nfin N v) && neqb N (nofZ N 1) (nofZ N 0) then nofZ N 0 else v);
  p_w0 : forall z, z < npix s -> usable N s z = false -> exists x,
     at_ (weightVector o) z = (let v := nmul N (nofZ N 0) x in
        if negb (nfin N v) && neqb N (nofZ N 0) (nofZ N 0) then nofZ N 0 else v);
  p_x : match s_stat s with
        | Cash => length (extraCash o) = npix s /\ forall z, z < npix s -> at_ (extraCash o) z = nofZ N 0
        | PMLR => length (extraCash o) = npix s /\ forall z, z < npix s -> at_ (extraCash o) z = xterm s (at_ (s_data s) z)
        | _ => True end;
  p_nv : nValid o = n_usable N s;
  p_mod : modelErrors o = match s_stat s with ChiModelErrors => true | _ => false end;
  p_uc : useCash o = match s_stat s with Cash | PMLR => true | _ => false end;
  p_mlr : poissonMLR o = match s_stat s with PMLR => true | _ => false end;
  p_eg : effectiveGain o = total_gain N s; p_nc : nCombined o = nofZ N (s_nCombined s);
  p_sky : originalSky o = s_sky s;
  p_rn : readNoise_adu_squared o
          = ndiv N (nmul N (s_readNoise s) (s_readNoise s)) (nmul N (total_gain N s) (total_gain N s));
  p_conv : match s_psf s with
            | None => doConvolution o = false
            | Some (pc, pr) => doConvolution o = true /\ nPSFColumns o = pc /\ nPSFRows o = pr /\
                               nModelColumns o = s_cols s + 2 * pc /\ nModelRows o = s_rows s + 2 * pr
            end;
  p_bs : doBootstrap o = false;
  p_st : st = (if (n_usable N s <? 1)%Z then -3 else if weight_ok s o then 0 else -1)%Z }.

Ltac flds := cbn [with_bootstrap with_extra with_weights with_flags with_mask with_data nDataVals nDataColumns nDataRows dataVector dataValsSet maskExists maskVector nValid
      externalErrors dataErrors modelErrors useCash poissonMLR weightValsSet weightVector extraCash effectiveGain nCombined originalSky
      readNoise_adu_squared doConvolution nPSFColumns nPSFRows nModelColumns nModelRows doBootstrap bootstrapIndices].

(** what stays the same from a given point on *)
Record frame (s : setup T) (o : mobj T) (g : nat -> bool) : Prop := {
  f_n : nDataVals o = npix s; f_c : nDataColumns o = s_cols s; f_r : nDataRows o = s_rows s;
  f_d : dataVector o = s_data s; f_ds : dataValsSet o = true;
  f_me : maskExists o = true; f_m : is_mask (maskVector o) g (npix s); f_nv : nValid o = cnt g (npix s);
  f_ext : externalErrors o = user_errors s;
  f_mod : modelErrors o = match s_stat s with ChiModelErrors => true | _ => false end;
  f_uc : useCash o = match s_stat s with Cash | PMLR => true | _ => false end;
  f_mlr : poissonMLR o = match s_stat s with PMLR => true | _ => false end;
  f_eg : effectiveGain o = total_gain N s; f_nc : nCombined o = nofZ N (s_nCombined s);
  f_sky : originalSky o = s_sky s;
  f_rn : readNoise_adu_squared o
          = ndiv N (nmul N (s_readNoise s) (s_readNoise s)) (nmul N (total_gain N s) (total_gain N s));
  f_conv : match s_psf s with
            | None => doConvolution o = false
            | Some (pc, pr) => doConvolution o = true /\ nPSFColumns o = pc /\ nPSFRows o = pr /\
                               nModelColumns o = s_cols s + 2 * pc /\ nModelRows o = s_rows s + 2 * pr
            end;
  f_bs : doBootstrap o = false }.

Definition wts (s : setup T) (o : mobj T) : Prop :=
  weightValsSet o = true /\ length (weightVector o) = npix s /\
  forall z, z < npix s -> at_ (weightVector o) z = given_weight N s z.
Definition xts (s : setup T) (o : mobj T) : Prop :=
  match s_stat s with
        | Cash => length (extraCash o) = npix s /\ forall z, z < npix s -> at_ (extraCash o) z = nofZ N 0
        | PMLR => length (extraCash o) = npix s /\ forall z, z < npix s -> at_ (extraCash o) z = xterm s (at_ (s_data s) z)
        | _ => True end.

Lemma final_ok s o : length (s_data s) = npix s -> started s o ->
  exists st o', FinalSetupForFitting N o = Ok (st, o') /\ prepared s st o'.
Proof.
  intros Ld []. unfold FinalSetupForFitting.
  (* the default mask *)
  set (o0 := if maskExists o then o else _).
  assert (F0 : frame s o0 (user_good N s) /\
     match s_stat s with ChiDataErrors => dataErrors o0 = true | ChiModelErrors => dataErrors o0 = false | _ => True end /\
     match s_stat s with ChiDataErrors => True | _ => wts s o0 end /\
     match s_stat s with Cash | PMLR => extraCash o0 = repeat (nofZ N 0) (npix s) | _ => True end).
  { unfold o0, wts. destruct (maskExists o) eqn:Em.
    - destruct st_m0. repeat split; auto; apply H.
    - destruct st_m0 as (M1 & M2). flds. split; [|auto]. constructor; flds; auto.
      + rewrite st_n0. split; [apply repeat_length|]. intros z Hz. rewrite at_repeat by auto. unfold user_good. now rewrite M1.
      + rewrite M2, cnt_all; auto. intros z _. unfold user_good. now rewrite M1. }
  clearbody o0. destruct F0 as (F0 & De0 & W0 & X0).
  (* non-finite data *)
  assert (F1 : exists o1, mask_nonfinite_data N o0 = Ok o1 /\ frame s o1 (fun z => user_good N s z && nfin N (at_ (s_data s) z)) /\
     match s_stat s with ChiDataErrors => dataErrors o1 = true | ChiModelErrors => dataErrors o1 = false | _ => True end /\
     match s_stat s with ChiDataErrors => True | _ => wts s o1 end /\
     match s_stat s with Cash | PMLR => extraCash o1 = repeat (nofZ N 0) (npix s) | _ => True end).
  { destruct F0. destruct (@mnd_ok o0 (user_good N s)) as (m' & E & M).
    - now rewrite f_n0. - now rewrite f_d0, f_n0. - now rewrite f_n0.
    - rewrite E. eexists. split; [reflexivity|]. rewrite f_d0, f_n0 in M. rewrite f_d0, f_n0. unfold wts. flds.
      split; [constructor; flds; auto|auto]. }
  destruct F1 as (o1 & E1 & F1 & De1 & W1 & X1). rewrite E1. cbn [bind]. clear E1 F0 De0 W0 X0.
  (* weights from the data *)
  assert (F2 : exists o2, (if (negb (useCash o1) && dataErrors o1 && negb (externalErrors o1))%bool
           then GenerateErrorVector N o1 else Ok o1) = Ok o2 /\ frame s o2 (fun z => user_good N s z && nfin N (at_ (s_data s) z)) /\
           wts s o2 /\ match s_stat s with Cash | PMLR => extraCash o2 = repeat (nofZ N 0) (npix s) | _ => True end).
  { destruct F1. rewrite f_uc0, f_ext0. unfold user_errors.
    destruct (s_stat s) eqn:Es; cbn [negb andb].
    - exists o1. split; [reflexivity|]. split; [|split; auto]. constructor; unfold user_errors; rewrite ?Es; auto.
      rewrite f_ext0. unfold user_errors. now rewrite Es.
    - exists o1. split; [reflexivity|]. split; [|split; auto]. constructor; unfold user_errors; rewrite ?Es; auto.
      rewrite f_ext0. unfold user_errors. now rewrite Es.
    - rewrite andb_false_r. exists o1. split; [reflexivity|]. split; [|split; auto]. constructor; unfold user_errors; rewrite ?Es; auto.
      rewrite f_ext0. unfold user_errors. now rewrite Es.
    - rewrite De1. cbn [andb]. exists o1. split; [reflexivity|]. split; [|split; auto]. constructor; unfold user_errors; rewrite ?Es; auto.
      rewrite f_ext0. unfold user_errors. now rewrite Es.
    - rewrite De1. cbn [andb]. unfold GenerateErrorVector.
      match goal with |- context [each ?n ?f ?w0] => destruct (@each_ok n f w0 (fun z _ => given_weight N s z)) as (w & E & L & A & B) end.
      + rewrite repeat_length. lia.
      + intros z Hz. rewrite f_d0, at_get by lia. cbn [bind]. rewrite f_sky0, f_eg0, f_nc0, f_rn0. unfold given_weight. rewrite Es. reflexivity.
      + rewrite E. cbn [bind]. eexists. split; [reflexivity|]. rewrite repeat_length in L. unfold wts. rewrite f_n0 in *. flds.
        split; [constructor; flds; unfold user_errors; rewrite ?Es; auto; rewrite f_ext0; unfold user_errors; now rewrite Es|auto]. }
  destruct F2 as (o2 & E2 & F2 & W2 & X2). rewrite E2. cbn [bind]. clear E2 F1 De1 W1 X1.
  (* extra terms *)
  assert (F3 : exists o3, (if (useCash o2 && poissonMLR o2)%bool then GenerateExtraCashTerms N o2 else Ok o2) = Ok o3 /\
       frame s o3 (fun z => user_good N s z && nfin N (at_ (s_data s) z)) /\ wts s o3 /\ xts s o3).
  { destruct F2. rewrite f_uc0, f_mlr0. unfold xts. destruct (s_stat s) eqn:Es; cbn [andb];
      try (exists o2; split; [reflexivity|]; split; [constructor; rewrite ?Es; auto|]; split; auto; fail).
    - exists o2. split; [reflexivity|]. split; [constructor; rewrite ?Es; auto|]. split; auto.
      rewrite X2. split; [apply repeat_length|]. intros z Hz. now apply at_repeat.
    - unfold GenerateExtraCashTerms.
      match goal with |- context [each ?n ?f ?w0] => destruct (@each_ok n f w0 (fun z _ => xterm s (at_ (s_data s) z))) as (w & E & L & A & B) end.
      + rewrite X2, repeat_length. lia.
      + intros z Hz. rewrite f_d0, at_get by lia. cbn [bind]. unfold extra_term, xterm. now rewrite f_sky0, f_eg0.
      + rewrite E. cbn [bind]. eexists. split; [reflexivity|]. rewrite X2, repeat_length in L. rewrite f_n0 in A. destruct W2 as (? & ? & ?).
        unfold wts. flds. split; [constructor; flds; rewrite ?Es; auto|auto]. }
  destruct F3 as (o3 & E3 & F3 & W3 & X3). rewrite E3. cbn [bind]. clear E3 F2 W2 X2.
  (* non-finite error values *)
  assert (F4 : exists o4, (if externalErrors o3 then mask_nonfinite_weights N o3 else Ok o3) = Ok o4 /\
       frame s o4 (usable N s) /\ weightValsSet o4 = true /\ length (weightVector o4) = npix s /\
       (forall z, z < npix s -> usable N s z = true -> at_ (weightVector o4) z = given_weight N s z) /\ xts s o4).
  { destruct F3. destruct W3 as (Ws & Wl & Wv). rewrite f_ext0. destruct (user_errors s) eqn:Eu.
    - destruct (@mnw_ok o3 (fun z => user_good N s z && nfin N (at_ (s_data s) z))) as (m' & w' & E & M & L & A).
      + now rewrite f_n0. + now rewrite f_n0. + now rewrite f_n0.
      + rewrite E. eexists. split; [reflexivity|]. unfold xts in *. flds. rewrite f_n0 in *.
        assert (G : forall z, z < npix s -> (user_good N s z && nfin N (at_ (s_data s) z)) && nfin N (at_ (weightVector o3) z) = usable N s z).
        { intros z Hz. unfold usable. rewrite Eu, Wv by auto. reflexivity. }
        split; [constructor; flds; auto|].
        * destruct M as (M1 & M2). split; [auto|]. intros z Hz. rewrite M2 by auto. now rewrite G.
        * now apply cnt_ext.
        * rewrite f_ext0. now symmetry.
        * split; [auto|]. split; [auto|]. split; [|auto]. intros z Hz U. rewrite A by auto.
          rewrite <- G in U by auto. apply andb_prop in U. destruct U as (U1 & U2). rewrite U1, U2. cbn [negb andb]. auto.
    - exists o3. split; [reflexivity|].
      assert (G : forall z, user_good N s z && nfin N (at_ (s_data s) z) = usable N s z).
      { intros z. unfold usable. rewrite Eu. now rewrite andb_true_r. }
      split; [constructor; auto|].
      + destruct f_m0 as (M1 & M2). split; [auto|]. intros z Hz. rewrite M2 by auto. now rewrite G.
      + rewrite f_nv0. now apply cnt_ext.
      + now rewrite f_ext0.
      + auto. }
  destruct F4 as (o4 & E4 & F4 & Ws4 & Wl4 & W4 & X4). rewrite E4. cbn [bind]. clear E4 F3 W3 X3.
  destruct F4. destruct (@apply_ok o4 (usable N s)) as (w' & E & L & A); auto.
  { now rewrite f_n0. } { now rewrite f_n0. }
  rewrite E. cbn [bind]. rewrite f_n0 in L, A.
  set (o5 := with_weights o4 true (externalErrors o4) w').
  rewrite (@check_ok o5 (usable N s)); [|exact f_me0|unfold o5; flds; now rewrite f_n0|unfold o5; flds; now rewrite f_n0].
  cbn [bind]. change (dataValsSet o5) with (dataValsSet o4). rewrite f_ds0.
  destruct (@vet_ok o5 (usable N s)) as (d' & Ev & Lv & Av).
  { unfold o5; flds. now rewrite f_n0. } { unfold o5; flds. now rewrite f_n0, f_d0. }
  { unfold o5; flds. intros z _ U. unfold usable in U. rewrite f_d0. apply andb_prop in U. destruct U as (U & _). now apply andb_prop in U. }
  rewrite Ev. cbn [bind]. eexists _, _. split; [reflexivity|].
  change (nDataVals o5) with (nDataVals o4) in *. change (weightVector o5) with w'. change (dataVector o5) with (dataVector o4) in *.
  rewrite f_n0 in *. rewrite f_d0 in *.
  constructor; unfold o5; flds; auto.
  - intros z Hz U. rewrite A by auto. rewrite U. cbn [bit]. rewrite W4 by auto. reflexivity.
  - intros z Hz U. rewrite A by auto. rewrite U. cbn [bit]. eexists. reflexivity.
  - rewrite f_nv0. reflexivity.
Qed.

Theorem prepare_ok s : well_formed N s -> exists st o, prepare N s = Ok (st, o) /\ prepared s st o.
Proof.
  intros W. destruct (setup_ok W) as (o & E & S). unfold prepare. rewrite E. cbn [bind].
  apply final_ok; [apply W|auto].
Qed.
Lemma fill_ok n (F : nat -> res T) (G : nat -> T) y off :
  off + n <= length y -> (forall z, z < n -> F z = Ok (G z)) ->
  for_ n (fun z y => do v <- F z; set y (off + z) v) y
  = Ok (firstn off y ++ map G (seq 0 n) ++ skipn (off + n) y).
Proof.
  intros L HF.
  destruct (@for_inv _ (fun k y' => y' = firstn off y ++ map G (seq 0 k) ++ skipn (off + k) y)
     (fun z y => do v <- F z; set y (off + z) v) n y) as (y' & E & P).
  - rewrite Nat.add_0_r. cbn [map seq app]. now rewrite firstn_skipn.
  - intros i y' Hi ->. rewrite HF by auto. cbn [bind].
    assert (L1 : length (firstn off y) = off) by (rewrite firstn_length; lia).
    assert (L2 : length (map G (seq 0 i)) = i) by (rewrite map_length, seq_length; auto).
    assert (L3 : length (skipn (off + i) y) = length y - (off + i)) by apply skipn_length.
    rewrite set_lt by (rewrite !app_length, L1, L2, L3; lia). eexists. split; [reflexivity|].
    apply at_ext.
    + rewrite upd_length, !app_length, !map_length, !seq_length, !skipn_length, L1. lia.
    + intros z Hz. rewrite upd_length, !app_length, L1, L2, L3 in Hz.
      rewrite at_upd by (rewrite !app_length, L1, L2, L3; lia). unfold Fit_Spec.at_.
      destruct (Nat.lt_ge_cases z off) as [C|C].
      * rewrite !(@app_nth1 _ (firstn off y)) by lia. destruct (Nat.eqb_spec (off + i) z); [lia|reflexivity].
      * rewrite !(@app_nth2 _ (firstn off y)) by lia. rewrite L1.
        rewrite seq_S, map_app. cbn [map Nat.add]. rewrite <- app_assoc. cbn [app].
        destruct (Nat.eqb_spec (off + i) z).
        -- subst z. replace (off + i - off) with i by lia. rewrite app_nth2 by lia. rewrite L2.
           replace (i - i) with 0 by lia. reflexivity.
        -- destruct (Nat.lt_ge_cases (z - off) i) as [C2|C2].
           ++ rewrite !(@app_nth1 _ (map G (seq 0 i))) by lia. reflexivity.
           ++ rewrite !(@app_nth2 _ (map G (seq 0 i))) by lia. rewrite L2.
              destruct (z - off - i) as [|q] eqn:Eq; [lia|]. cbn [nth].
              rewrite !nth_skipn. f_equal. lia.
  - rewrite E. now rewrite P.
Qed.

(** where the model value of a data pixel is *)
Lemma model_index s st o mv z : prepared s st o -> length mv = model_size s -> z < npix s ->
  get mv (zModel o z) = Ok (model_at N s mv z).
Proof.
  intros [] L Hz. unfold zModel, model_at, model_size in *. rewrite p_c0.
  assert (C : 0 < s_cols s) by (unfold npix in Hz; destruct (s_cols s); lia).
  assert (R : z / s_cols s < s_rows s) by (apply Nat.div_lt_upper_bound; unfold npix in Hz; lia).
  assert (M : z mod s_cols s < s_cols s) by (apply Nat.mod_upper_bound; lia).
  destruct (s_psf s) as [[pc pr]|].
  - destruct p_conv0 as (-> & -> & -> & -> & _).
    replace ((s_cols s + 2 * pc) * (pr + z / s_cols s) + pc + (z - z / s_cols s * s_cols s))
      with ((z / s_cols s + pr) * (s_cols s + 2 * pc) + (z mod s_cols s + pc))
      by (rewrite Nat.mod_eq, (Nat.mul_comm (s_cols s) (z / s_cols s)) by lia; lia).
    apply at_get. rewrite L. set (i := z / s_cols s) in *. set (j := z mod s_cols s) in *. set (c := s_cols s) in *. nia.
  - rewrite p_conv0. apply at_get. lia.
Qed.

Lemma resampled_frame s st o ob : prepared s st o -> resample_ok N s ob ->
  nTerms (resampled o ob) = length (pixels s ob) /\
  length (pixels s ob) <= npix s /\
  (forall z, z < length (pixels s ob) -> pixel_of (resampled o ob) z = Ok (nth z (pixels s ob) 0) /\ nth z (pixels s ob) 0 < npix s) /\
  (forall i, In i (pixels s ob) -> i < npix s).
Proof.
  intros [] R. destruct ob as [b|]; cbn [resampled pixels resample_ok] in *.
  - destruct R as (R1 & R2). unfold nTerms, pixel_of. flds. split; [rewrite p_nv0; lia|].
    split. { pose proof (cnt_bounds (usable N s) (npix s)). unfold n_usable in R1. unfold cnt in H. lia. }
    rewrite Forall_forall in R2. split; [|auto]. intros z Hz. rewrite (get_nth 0) by auto. split; auto. apply R2. now apply nth_In.
  - unfold nTerms, pixel_of. rewrite p_bs0, seq_length. split; [auto|]. split; [auto|]. split.
    + intros z Hz. rewrite seq_nth by auto. auto.
    + intros i Hi. apply in_seq in Hi. lia.
Qed.

(** the weight a pixel has when the statistic is computed *)
Definition used_weight (s : setup T) (o : mobj T) (mv : list T) (z : nat) : T :=
  match s_stat s with
  | ChiModelErrors => if usable N s z then ndiv N (nofZ N 1) (nsqrt N (noise_sq N s (nadd N (model_at N s mv z) (s_sky s))))
                      else at_ (weightVector o) z
  | _ => at_ (weightVector o) z
  end.

Lemma update_ok s st o mv ob : prepared s st o -> length mv = model_size s ->
  exists w', (if modelErrors (resampled o ob) then UpdateWeightVector N (resampled o ob) mv else Ok (resampled o ob))
     = Ok (with_weights (resampled o ob) (weightValsSet o) (externalErrors o) w') /\
   length w' = npix s /\ forall z, z < npix s -> at_ w' z = used_weight s o mv z.
Proof.
  intros P L. unfold used_weight.
  assert (Z : forall z, zModel (resampled o ob) z = zModel o z) by (intros; destruct ob; reflexivity).
  pose proof (fun z => @model_index s st o mv z P L) as MI. destruct P.
  assert (RM : modelErrors (resampled o ob) = modelErrors o) by (destruct ob; reflexivity). rewrite RM, p_mod0.
  assert (D : with_weights (resampled o ob) (weightValsSet o) (externalErrors o) (weightVector o) = resampled o ob)
    by (destruct ob, o; reflexivity).
  destruct (s_stat s) eqn:Es; try (exists (weightVector o); rewrite D; split; [reflexivity|]; split; [auto|]; intros; reflexivity).
  unfold UpdateWeightVector.
  destruct p_m0 as (Lm & Hm).
  match goal with |- context [each ?n ?f ?w0] => destruct (@each_ok n f w0
     (fun z x => if usable N s z then ndiv N (nofZ N 1) (nsqrt N (noise_sq N s (nadd N (model_at N s mv z) (s_sky s)))) else x)) as (w' & E & L' & A & B) end.
  - destruct ob; unfold resampled; flds; lia.
  - intros z Hz. assert (Hz' : z < npix s) by (destruct ob; unfold resampled in Hz; revert Hz; flds; lia).
    replace (maskExists (resampled o ob)) with true by (destruct ob; unfold resampled; flds; auto).
    replace (maskVector (resampled o ob)) with (maskVector o) by (destruct ob; reflexivity).
    rewrite at_get by lia. cbn [bind]. rewrite Hm, ltb_bit by auto. cbn [bind].
    destruct (usable N s z); [|reflexivity]. rewrite Z, MI by auto. cbn [bind].
    replace (originalSky (resampled o ob)) with (originalSky o) by (destruct ob; reflexivity).
    replace (effectiveGain (resampled o ob)) with (effectiveGain o) by (destruct ob; reflexivity).
    replace (nCombined (resampled o ob)) with (nCombined o) by (destruct ob; reflexivity).
    replace (readNoise_adu_squared (resampled o ob)) with (readNoise_adu_squared o) by (destruct ob; reflexivity).
    rewrite p_sky0, p_eg0, p_nc0, p_rn0. reflexivity.
  - rewrite E. cbn [bind]. exists w'.
    replace (weightValsSet (resampled o ob)) with (weightValsSet o) by (destruct ob; reflexivity).
    replace (externalErrors (resampled o ob)) with (externalErrors o) by (destruct ob; reflexivity).
    split; [reflexivity|].
    replace (weightVector (resampled o ob)) with (weightVector o) in * by (destruct ob; reflexivity).
    replace (nDataVals (resampled o ob)) with (npix s) in * by (destruct ob; unfold resampled; flds; auto).
    split; [lia|]. exact A.
Qed.

(** one deviate *)
Definition deviate (s : setup T) (o : mobj T) (mv : list T) (z : nat) : T :=
  match s_stat s with
  | PMLR => nsqrt N (nmul N (nmul N (nofZ N 2) (used_weight s o mv z)) (nabs N (pixel_term N s mv z)))
  | _ => nmul N (used_weight s o mv z) (nsub N (clean_data N s z) (model_at N s mv z))
  end.

Lemma deviates_ok s st o mv ob y off : prepared s st o -> length mv = model_size s -> resample_ok N s ob ->
  off + length (pixels s ob) <= length y ->
  exists o', ComputeDeviates N (resampled o ob) mv y off
    = Ok (o', firstn off y ++ map (deviate s o mv) (pixels s ob) ++ skipn (off + length (pixels s ob)) y).
Proof.
  intros P L R Ly. destruct (@update_ok s st o mv ob P L) as (w' & E & Lw & Aw).
  destruct (@resampled_frame s st o ob P R) as (RF1 & RF2 & RF3 & RF4).
  pose proof (fun z => @model_index s st o mv z P L) as MI.
  unfold ComputeDeviates. rewrite E. cbn [bind].
  set (o2 := with_weights _ _ _ w').
  assert (NT : nTerms o2 = length (pixels s ob)) by (rewrite <- RF1; destruct ob; reflexivity).
  assert (PO : forall z, pixel_of o2 z = pixel_of (resampled o ob) z) by (intros; destruct ob; reflexivity).
  assert (ZM : forall z, zModel o2 z = zModel o z) by (intros; destruct ob; reflexivity).
  match goal with |- context [for_ (nTerms o2) ?f y] => replace (for_ (nTerms o2) f y) with
     (for_ (nTerms o2) (fun z y => do v <- (do b <- pixel_of o2 z;
        (if poissonMLR o2 then ComputePoissonMLRDeviate N o2 mv b (zModel o2 b) else chi_deviate N o2 mv b (zModel o2 b))); set y (off + z) v) y) end.
  2:{ apply for_ext. intros i y' Hi. destruct (pixel_of o2 i); reflexivity. }
  rewrite NT, (@fill_ok _ _ (fun k => deviate s o mv (nth k (pixels s ob) 0))); auto.
  - cbn [bind]. rewrite <- (map_map (fun k => nth k (pixels s ob) 0) (deviate s o mv)). 
    rewrite (map_nth_seq (pixels s ob) 0). eexists. reflexivity.
  - intros z Hz. rewrite PO. destruct (RF3 z Hz) as (-> & Hi). cbn [bind]. set (i := nth z (pixels s ob) 0) in *.
    rewrite ZM. destruct P. replace (poissonMLR o2) with (poissonMLR o) by (destruct ob; reflexivity). rewrite p_mlr0.
    unfold deviate, ComputePoissonMLRDeviate, chi_deviate, pixel_term, clean_data.
    replace (dataVector o2) with (dataVector o) by (destruct ob; reflexivity).
    replace (extraCash o2) with (extraCash o) by (destruct ob; reflexivity).
    replace (weightVector o2) with w' by (destruct ob; reflexivity).
    rewrite MI by auto. rewrite (@at_get (dataVector o)), (@at_get w') by lia. cbn [bind]. rewrite p_d0, Aw by auto.
    unfold data_term. destruct (s_stat s) eqn:Es; cbn [bind]; try reflexivity.
    destruct p_x0 as (X1 & X2). rewrite (@at_get (extraCash o)) by lia. cbn [bind]. rewrite X2 by auto.
    do 2 f_equal. f_equal. unfold cash_term, xterm, counts.
    replace (effectiveGain o2) with (effectiveGain o) by (destruct ob; reflexivity).
    replace (originalSky o2) with (originalSky o) by (destruct ob; reflexivity).
    rewrite p_eg0, p_sky0. reflexivity.
Qed.

Lemma chi_ok s st o mv ob : prepared s st o -> length mv = model_size s -> resample_ok N s ob -> chi_statistic s ->
  exists o', ChiSquared N (resampled o ob) mv
    = Ok (o', let chi := mp_enorm N (map (deviate s o mv) (pixels s ob)) in nmul N chi chi).
Proof.
  intros P L R Ch. destruct (@update_ok s st o mv ob P L) as (w' & E & Lw & Aw).
  destruct (@resampled_frame s st o ob P R) as (RF1 & RF2 & RF3 & RF4).
  pose proof (fun z => @model_index s st o mv z P L) as MI.
  unfold ChiSquared. rewrite E. cbn [bind].
  set (o2 := with_weights _ _ _ w').
  assert (NT : nTerms o2 = length (pixels s ob)) by (rewrite <- RF1; destruct ob; reflexivity).
  assert (PO : forall z, pixel_of o2 z = pixel_of (resampled o ob) z) by (intros; destruct ob; reflexivity).
  assert (ZM : forall z, zModel o2 z = zModel o z) by (intros; destruct ob; reflexivity).
  set (y := repeat (nofZ N 0) (nDataVals o2)).
  match goal with |- context [for_ (nTerms o2) ?f y] => replace (for_ (nTerms o2) f y) with
     (for_ (nTerms o2) (fun z y => do v <- (do b <- pixel_of o2 z; chi_deviate N o2 mv b (zModel o2 b)); set y (0 + z) v) y) end.
  2:{ apply for_ext. intros i y' Hi. destruct (pixel_of o2 i); reflexivity. }
  rewrite NT, (@fill_ok _ _ (fun k => deviate s o mv (nth k (pixels s ob) 0))); auto.
  - cbn [bind firstn app Nat.add]. rewrite <- (map_map (fun k => nth k (pixels s ob) 0) (deviate s o mv)).
    rewrite (map_nth_seq (pixels s ob) 0).
    assert (FA : forall (l r : list T) k, k = length l -> firstn k (l ++ r) = l).
    { intros l r k ->. rewrite firstn_app, Nat.sub_diag, firstn_all. cbn [firstn]. apply app_nil_r. }
    rewrite FA by (now rewrite map_length). eexists. reflexivity.
  - unfold y. rewrite repeat_length. destruct P. replace (nDataVals o2) with (nDataVals o) by (destruct ob; reflexivity). lia.
  - intros z Hz. rewrite PO. destruct (RF3 z Hz) as (-> & Hi). cbn [bind]. set (i := nth z (pixels s ob) 0) in *.
    rewrite ZM. destruct P. unfold deviate, chi_deviate, clean_data.
    replace (dataVector o2) with (dataVector o) by (destruct ob; reflexivity).
    replace (weightVector o2) with w' by (destruct ob; reflexivity).
    rewrite MI by auto. rewrite (@at_get (dataVector o)), (@at_get w') by lia. cbn [bind]. rewrite p_d0, Aw by auto.
    unfold chi_statistic in Ch. destruct (s_stat s) eqn:Es; try contradiction; reflexivity.
Qed.

Lemma cash_ok s st o mv ob : prepared s st o -> length mv = model_size s -> resample_ok N s ob -> ~ chi_statistic s ->
  CashStatistic N (resampled o ob) mv
    = Ok (nmul N (nofZ N 2) (fold_left (nadd N) (map (fun z => nmul N (used_weight s o mv z) (pixel_term N s mv z)) (pixels s ob)) (nofZ N 0))).
Proof.
  intros P L R Ch. destruct (@resampled_frame s st o ob P R) as (RF1 & RF2 & RF3 & RF4).
  pose proof (fun z => @model_index s st o mv z P L) as MI.
  unfold CashStatistic. rewrite RF1. set (o2 := resampled o ob) in *.
  set (G := fun z => nmul N (used_weight s o mv z) (pixel_term N s mv z)).
  match goal with |- context [for_ ?n ?f ?a] => assert (E : for_ n f a = Ok (fold_left (nadd N) (map G (pixels s ob)) (nofZ N 0))) end.
  2:{ rewrite E. reflexivity. }
  match goal with |- for_ ?n ?f ?a = _ => destruct (@for_inv _ (fun k v => v = fold_left (nadd N) (map G (firstn k (pixels s ob))) (nofZ N 0)) f n a) as (v & E & Pv) end.
  - reflexivity.
  - intros i v Hi ->. destruct (RF3 i Hi) as (-> & Hn). cbn [bind].
    assert (FS : firstn (S i) (pixels s ob) = firstn i (pixels s ob) ++ [nth i (pixels s ob) 0]).
    { now apply firstn_snoc. }
    rewrite FS, map_app, fold_left_app. cbn [map fold_left].
    set (j := nth i (pixels s ob) 0) in *.
    replace (zModel o2 j) with (zModel o j) by (unfold o2; destruct ob; reflexivity). rewrite MI by auto. destruct P.
    replace (dataVector o2) with (dataVector o) by (unfold o2; destruct ob; reflexivity).
    replace (extraCash o2) with (extraCash o) by (unfold o2; destruct ob; reflexivity).
    replace (weightVector o2) with (weightVector o) by (unfold o2; destruct ob; reflexivity).
    assert (XL : length (extraCash o) = npix s /\ at_ (extraCash o) j = data_term N s j).
    { unfold data_term. destruct (s_stat s) eqn:Es; try (exfalso; apply Ch; unfold chi_statistic; rewrite Es; exact I);
        destruct p_x0 as (X1 & X2); split; auto; now rewrite X2. }
    destruct XL as (X1 & X2).
    rewrite (@at_get (dataVector o)), (@at_get (extraCash o)), (@at_get (weightVector o)) by lia. cbn [bind].
    eexists. split; [reflexivity|]. f_equal. unfold G, used_weight, pixel_term, cash_term, clean_data, counts. rewrite X2.
    replace (effectiveGain o2) with (effectiveGain o) by (unfold o2; destruct ob; reflexivity).
    replace (originalSky o2) with (originalSky o) by (unfold o2; destruct ob; reflexivity).
    rewrite p_eg0, p_sky0, p_d0 by auto.
    destruct (s_stat s) eqn:Es; try (exfalso; apply Ch; unfold chi_statistic; rewrite Es; exact I); reflexivity.
  - rewrite E, Pv. now rewrite firstn_all.
Qed.
End Gen.

(** C26 *)
Section Mask.
Variables (T : Type) (N : Num T).
Lemma mask_types o cols rows pix ty :
  cols = nDataColumns o -> rows = nDataRows o -> cols * rows = nDataVals o -> length pix = nDataVals o ->
  (ty = 10 \/ ty = 20)%Z ->
  exists mask, AddMaskVector N o cols rows pix ty
      = Ok (0%Z, with_mask o true mask (Z.of_nat (length (filter (mask_good N ty) pix)))) /\
    mask = map (fun x => if mask_good N ty x then nofZ N 1 else nofZ N 0) pix.
Proof.
  intros -> -> E L Ty. unfold AddMaskVector. rewrite E, !Nat.eqb_refl. cbn [andb].
  assert (C : forall g : T -> bool, cnt (fun z => g (at_ N pix z)) (nDataVals o) = Z.of_nat (length (filter g pix))).
  { intros g. unfold cnt. f_equal. rewrite <- L. transitivity (length (filter g (map (fun k => nth k pix (nofZ N 0)) (seq 0 (length pix))))); [|now rewrite map_nth_seq].
    generalize (seq 0 (length pix)). induction l as [|a l IH]; [reflexivity|]. cbn [map filter].
    change (nth a pix (nofZ N 0)) with (at_ N pix a). destruct (g (at_ N pix a)); cbn [length]; now rewrite IH. }
  assert (M : forall g (m : list T), length m = length pix -> (forall z, z < nDataVals o -> at_ N m z = g (at_ N pix z)) -> m = map g pix).
  { intros g m Lm A. apply (nth_ext m (map g pix) (nofZ N 0) (g (nofZ N 0))); [now rewrite map_length|].
    intros z Hz. rewrite map_nth. apply A. lia. }
  destruct Ty as [-> | ->].
  - change (10 =? MASK_ZERO_IS_GOOD)%Z with true. cbv iota.
    match goal with |- context [mask_loop N ?n ?b ?p] => destruct (@mask_loop_ok T N n b p) as (m & Em & Lm & A); [lia|] end.
    rewrite Em. cbn [bind fst snd]. exists m. rewrite (C (fun x => negb (negb (nfin N x) || nltb N (nofZ N 0) x))). split.
    + do 5 f_equal. apply filter_ext. intros x. unfold mask_good. cbn [Z.eqb Pos.eqb]. now rewrite negb_orb, negb_involutive.
    + apply M; auto. intros z Hz. rewrite A by auto. unfold mask_good. cbn [Z.eqb Pos.eqb]. now destruct (nfin N _), (nltb N _ _).
  - change (20 =? MASK_ZERO_IS_GOOD)%Z with false. change (20 =? MASK_ZERO_IS_BAD)%Z with true. cbv iota.
    match goal with |- context [mask_loop N ?n ?b ?p] => destruct (@mask_loop_ok T N n b p) as (m & Em & Lm & A); [lia|] end.
    rewrite Em. cbn [bind fst snd]. exists m. rewrite (C (fun x => negb (negb (nfin N x) || nltb N x (nofZ N 1)))). split.
    + do 5 f_equal. apply filter_ext. intros x. unfold mask_good. cbn [Z.eqb Pos.eqb]. now rewrite negb_orb, negb_involutive.
    + apply M; auto. intros z Hz. rewrite A by auto. unfold mask_good. cbn [Z.eqb Pos.eqb]. now destruct (nfin N _), (nltb N _ _).
Qed.
Lemma mask_other o cols rows pix ty : ty <> 10%Z -> ty <> 20%Z ->
  AddMaskVector N o cols rows pix ty = Abort \/ AddMaskVector N o cols rows pix ty = Ok ((-1)%Z, with_mask o false pix 0).
Proof.
  intros A B. unfold AddMaskVector. destruct (_ && _); [right|now left].
  unfold MASK_ZERO_IS_GOOD, MASK_ZERO_IS_BAD. apply Z.eqb_neq in A, B. now rewrite A, B.
Qed.
End Mask.
