(** Model images do not depend on earlier evaluations (without regions, or without
    point sources). Any arithmetic. *)
From Coq Require Import List Arith ZArith Lia Bool.
From Verif Require Import Base Num Params_Model Sums Conv_Model Conv_Proof Downsample_Model Image_Model Image_Spec Image_Proof.
Import ListNotations.
Set Implicit Arguments.
Unset Strict Implicit.
Local Open Scope nat_scope.

(** ---- running two programs side by side ---- *)
Definition rel2 {A B} (P : A -> B -> Prop) (x : res A) (y : res B) : Prop :=
  match x, y with
  | Ok a, Ok b => P a b
  | Undef, Undef | Abort, Abort | Fuel, Fuel => True
  | _, _ => False
  end.
Lemma rel2_bind {A B C D} (P : A -> B -> Prop) (Q : C -> D -> Prop) x y f g :
  rel2 P x y -> (forall a b, P a b -> rel2 Q (f a) (g b)) -> rel2 Q (bind x f) (bind y g).
Proof. destruct x, y; cbn; auto; contradiction. Qed.
Lemma rel2_refl {A} (P : A -> A -> Prop) x : (forall a, P a a) -> rel2 P x x.
Proof. destruct x; cbn; auto. Qed.
Lemma rel2_imp {A B} (P Q : A -> B -> Prop) x y : (forall a b, P a b -> Q a b) -> rel2 P x y -> rel2 Q x y.
Proof. destruct x, y; cbn; auto. Qed.
Lemma rel2_for_from {A B} (P : A -> B -> Prop) f g n : forall k a b,
  P a b -> (forall i a b, k <= i < k + n -> P a b -> rel2 P (f i a) (g i b)) -> rel2 P (for_from k n f a) (for_from k n g b).
Proof.
  induction n as [|n IH]; intros k a b H0 H; cbn [for_from]; [exact H0|].
  apply rel2_bind with P; [apply H; auto; lia|]. intros a' b' H'. apply IH; auto. intros i c d Hi. apply H. lia.
Qed.
Lemma rel2_for {A B} (P : A -> B -> Prop) f g n a b :
  P a b -> (forall i a b, i < n -> P a b -> rel2 P (f i a) (g i b)) -> rel2 P (for_ n f a) (for_ n g b).
Proof. intros H0 H. apply rel2_for_from; auto. intros i c d Hi. apply H. lia. Qed.
Lemma rel2_eq {A} (x y : res A) : rel2 eq x y -> x = y.
Proof. destruct x, y; cbn; try contradiction; congruence. Qed.

Section H.
  Variable T : Type.
  Variable N : Num T.
  Variable r2c : nat -> nat -> list T -> list (T * T).
  Variable c2r : nat -> nat -> list (T * T) -> list T.
  Variable m : model T.
  Hypothesis Hm : mo_regions m = [] \/ existsb is_point (mo_funcs m) = false.

  Definition same_obj (sel : bool) (a b : fobj T) : Prop :=
    fo_point a = fo_point b /\ (fo_point a = sel -> forall x y, fo_value a x y = fo_value b x y).
  Lemma kahan_same sel l l' x y : Forall2 (same_obj sel) l l' -> kahan_sum N l sel x y = kahan_sum N l' sel x y.
  Proof.
    intros F. unfold kahan_sum. f_equal. generalize (nofZ N 0, nofZ N 0) as acc. induction F as [|a b l l' [Hp Hv] F IH]; intros acc; [reflexivity|].
    cbn [fold_left]. rewrite <- IH. f_equal. destruct acc as [s e]. rewrite <- Hp.
    destruct (Bool.eqb (fo_point a) sel) eqn:E; auto. apply eqb_prop in E. now rewrite Hv.
  Qed.

  Lemma same_objs_false su st st' : length (st_interp st) = length (st_interp st') -> length (st_scale st) = length (st_scale st') ->
    Forall2 (same_obj false) (fobjs N m su st) (fobjs N m su st').
  Proof.
    unfold fobjs. intros Li Ls.
    assert (H : forall (fs : list (func T * (T * T * list T))) ii zz ii' zz', length ii = length ii' -> length zz = length zz' ->
      Forall2 (same_obj false) (map (fun '(f, s, (i, z)) => fobj_of N f s i z) (combine fs (combine ii zz)))
        (map (fun '(f, s, (i, z)) => fobj_of N f s i z) (combine fs (combine ii' zz')))).
    { induction fs as [|[f s] fs IH]; intros ii zz ii' zz' L1 L2; cbn [combine map]; [constructor|].
      destruct ii as [|i ii], ii' as [|i' ii']; cbn in L1; try discriminate; [constructor|].
      destruct zz as [|z zz], zz' as [|z' zz']; cbn in L2; try discriminate; [constructor|].
      cbn [combine map]. constructor; [|apply IH; lia]. split; [now rewrite !fobj_point|].
      rewrite fobj_point. intros Hp x y. now apply fobj_plain_value. }
    now apply H.
  Qed.
  (** point sources: same interpolators and scales *)
  Lemma same_objs_true su st st' : length (st_interp st) = length (st_interp st') -> st_scale st = st_scale st' ->
    (forall n f i i', nth_error (mo_funcs m) n = Some f -> is_point f = true -> nth_error (st_interp st) n = Some i ->
       nth_error (st_interp st') n = Some i' -> i = i') ->
    Forall2 (same_obj true) (fobjs N m su st) (fobjs N m su st').
  Proof.
    clear Hm. unfold fobjs. intros Li ->. generalize (st_scale st') as zz. revert Li. generalize (st_interp st) as ii, (st_interp st') as ii', su.
    induction (mo_funcs m) as [|f fs IH]; intros ii ii' [|s su'] L1 zz H; cbn [combine map]; try constructor.
    destruct ii as [|i ii], ii' as [|i' ii']; cbn in L1; try discriminate; [constructor|].
    destruct zz as [|z zz]; [constructor|]. cbn [combine map]. constructor.
    - split; [now rewrite !fobj_point|]. rewrite fobj_point. intros Hp x y. now rewrite (H 0 f i i' eq_refl Hp eq_refl eq_refl).
    - apply IH; [lia|]. intros n. exact (H (S n)).
  Qed.
  Lemma no_point_all su st st' sel : existsb is_point (mo_funcs m) = false ->
    length (st_interp st) = length (st_interp st') -> length (st_scale st) = length (st_scale st') ->
    Forall2 (same_obj sel) (fobjs N m su st) (fobjs N m su st').
  Proof.
    intros Hn Li Ls. pose proof (@same_objs_false su st st' Li Ls) as F.
    assert (Fp : Forall (fun o => fo_point o = false) (fobjs N m su st)).
    { clear -Hn. unfold fobjs. apply Forall_forall. intros o Ho. apply in_map_iff in Ho. destruct Ho as ([[f s] [i z]] & <- & Hi).
      rewrite fobj_point. apply in_combine_l, in_combine_l in Hi. destruct (is_point f) eqn:E; auto.
      rewrite <- Hn. symmetry. apply existsb_exists. eauto. }
    revert Fp. induction F as [|a b l l' [H1 H2] F IH]; intros Fp; constructor; inversion Fp; subst; auto.
    split; auto.
  Qed.

  (** ---- lengths ---- *)
  Lemma for2_length {A} (f : nat -> nat -> list A -> res (list A)) a b v v' :
    (forall i j x y, f i j x = Ok y -> length y = length x) -> for2 a b f v = Ok v' -> length v' = length v.
  Proof.
    intros H E. unfold for2 in E.
    refine (@for_ok (list A) (fun _ x => length x = length v) _ a v v' eq_refl _ E).
    intros i x y _ L Ei. refine (@for_ok (list A) (fun _ x => length x = length v) _ b x y L _ Ei).
    intros j p q _ Lp Eq. rewrite <- Lp. eapply H. exact Eq.
  Qed.
  Lemma set_length {A} (v v' : list A) i x : set v i x = Ok v' -> length v' = length v.
  Proof. unfold set. destruct (i <? length v); [|discriminate]. intros E. apply Ok_inj in E. subst. apply upd_length. Qed.
  Lemma convolve_length pl v v' : ConvolveImage N r2c c2r pl v = Ok v' -> length v' = length v.
  Proof.
    unfold ConvolveImage. intros E. apply bind_Ok in E. destruct E as (a & _ & E). apply bind_Ok in E. destruct E as (b & _ & E).
    eapply for2_length; [|exact E]. intros i j x y Ei. cbv beta in Ei. apply bind_Ok in Ei. destruct Ei as (c & _ & Ei). eapply set_length. exact Ei.
  Qed.
  Lemma forZ_length {A} lo hi (f : Z -> list A -> res (list A)) v v' :
    (forall i x y, f i x = Ok y -> length y = length x) -> forZ lo hi f v = Ok v' -> length v' = length v.
  Proof.
    unfold forZ. intros H E.
    refine (@for_ok (list A) (fun _ x => length x = length v) _ _ v v' eq_refl _ E).
    intros i x y _ L Ei. rewrite <- L. eapply H. exact Ei.
  Qed.
  Lemma region_length r cv fs pts v v' : ComputeRegionAndDownsample N r cv fs pts v = Ok v' -> length v' = length v.
  Proof.
    unfold ComputeRegionAndDownsample, DownsampleAndReplace. cbv zeta. destruct (rg_scale r =? 0)%Z; [discriminate|].
    intros E. eapply forZ_length; [|exact E]. intros i x y Ei. cbv beta in Ei.
    eapply forZ_length; [|exact Ei]. intros j p q Ej. cbv beta in Ej.
    apply bind_Ok in Ej. destruct Ej as (b & _ & Ej). unfold setZ in Ej. destruct (_ <? 0)%Z; [discriminate|]. eapply set_length. exact Ej.
  Qed.

  Lemma point_state_none {A} (v : A) old : existsb is_point (mo_funcs m) = false -> length old = length (mo_funcs m) -> point_state m v old = old.
  Proof.
    clear Hm. unfold point_state. revert old. induction (mo_funcs m) as [|f fs IH]; intros [|o old] Hn L; cbn in *; try discriminate; auto.
    apply orb_false_elim in Hn. destruct Hn as [-> Hn]. f_equal. apply IH; auto.
  Qed.

  (** ---- every call keeps the state good ---- *)
  Lemma fill_length st su : forall v, length (st_vec st) = nModelVals m ->
    for_ (nModelVals m) (fun k v => let j := k mod nModelColumns m in let i := k / nModelColumns m in
      set v (i * nModelColumns m + j) (kahan_sum N (fobjs N m su st) false (pix_x N m j) (pix_y N m i))) (st_vec st) = Ok v ->
    length v = nModelVals m.
  Proof.
    intros v L E.
    refine (@for_ok (list T) (fun _ x => length x = nModelVals m) _ _ (st_vec st) v L _ E).
    intros i x y _ Lx Ei. cbv zeta in Ei. apply set_length in Ei. congruence.
  Qed.
  Lemma regions_good su st st' : good m st -> regions_step N m su st = Ok st' -> good m st'.
  Proof.
    intros G E. destruct Hm as [H0|H0].
    - unfold regions_step in E. rewrite H0 in E. cbn in E. apply Ok_inj in E. now subst.
    - unfold regions_step in E.
      refine (@for_ok (state T) (fun _ x => good m x) _ _ st st' G _ E).
      intros n a b Hn [Gv Gi Gs] Eb. apply bind_Ok in Eb. destruct Eb as (ri & Er & Eb). cbv zeta in Eb.
      apply bind_Ok in Eb. destruct Eb as (v & Ev & Eb). apply Ok_inj in Eb. subst b. apply region_length in Ev.
      split; cbn [st_vec st_interp st_scale].
      + congruence.
      + now apply point_state_length.
      + rewrite point_state_none; auto. rewrite Gs. apply repeat_length.
  Qed.
  Lemma create_good st p st' : good m st -> CreateModelImage N r2c c2r m st p = Ok st' -> good m st'.
  Proof.
    intros [Gv Gi Gs] E. unfold CreateModelImage in E.
    apply bind_Ok in E. destruct E as (su & Es & E). cbv zeta in E. apply bind_Ok in E. destruct E as (v1 & E1 & E).
    apply (@fill_length st su v1 Gv) in E1.
    apply bind_Ok in E. destruct E as (v2 & E2 & E).
    assert (L2 : length v2 = nModelVals m).
    { destruct (mo_psf m) as [[[? ?] pl]|]; [|apply Ok_inj in E2; congruence]. apply convolve_length in E2. congruence. }
    apply bind_Ok in E. destruct E as (st2 & E3 & E). revert E. apply regions_good.
    destruct (existsb is_point (mo_funcs m)).
    - apply bind_Ok in E3. destruct E3 as (v3 & E3 & E4). apply Ok_inj in E4. subst st2.
      split; cbn [st_vec st_interp st_scale]; auto; [|now apply point_state_length].
      refine (@for_ok (list T) (fun _ x => length x = nModelVals m) _ _ v2 v3 L2 _ E3).
      intros k x y _ Lx Ek. apply bind_Ok in Ek. destruct Ek as (o & _ & Ek). apply set_length in Ek. congruence.
    - apply Ok_inj in E3. subst st2. split; auto.
  Qed.
  Lemma single_good st p idx r : good m st -> GetSingleFunctionImage N r2c c2r m st p idx = Ok r -> good m (snd r).
  Proof.
    intros [Gv Gi Gs] E. unfold GetSingleFunctionImage in E. destruct (forallb (nfin N) p); [|discriminate].
    apply bind_Ok in E. destruct E as (su & Es & E). apply bind_Ok in E. destruct E as (f & Ef & E). cbv zeta in E.
    apply bind_Ok in E. destruct E as (fo & Efo & E). apply bind_Ok in E. destruct E as (v1 & E1 & E).
    apply bind_Ok in E. destruct E as (v2 & E2 & E). apply bind_Ok in E. destruct E as (st2 & E3 & E).
    apply bind_Ok in E. destruct E as (out & Eo & E). apply Ok_inj in E. subst r. cbn [snd].
    set (st1 := if is_point f then mkState (st_vec st) (upd (st_interp st) idx (mo_interp m)) (st_scale st) else st) in *.
    assert (G1 : good m st1) by (unfold st1; destruct (is_point f); split; auto; cbn [st_interp]; now rewrite upd_length).
    assert (L1 : length v1 = nModelVals m).
    { rewrite <- (g_vec G1). eapply for2_length; [|exact E1]. intros i j x y Ei. eapply set_length. exact Ei. }
    assert (L2 : length v2 = nModelVals m).
    { destruct (mo_psf m) as [[[? ?] pl]|]; [|apply Ok_inj in E2; congruence].
      destruct (is_point f); [apply Ok_inj in E2; congruence|]. apply convolve_length in E2. congruence. }
    unfold regions_step1 in E3. rewrite Ef in E3. cbn [bind] in E3.
    refine (@for_ok (state T) (fun _ x => good m x) _ _ _ st2 _ _ E3).
    - split; cbn [st_vec st_interp st_scale]; auto; [exact (g_interp G1)|exact (g_scale G1)].
    - intros n a b Hn [Hv Hi Hs] Eb. destruct Hm as [H0|H0]; [rewrite H0 in Hn; cbn in Hn; lia|].
      assert (Hp : is_point f = false).
      { destruct (is_point f) eqn:Hp; auto. rewrite <- H0. symmetry. apply existsb_exists. exists f. split; auto.
        unfold get in Ef. destruct (nth_error (mo_funcs m) idx) eqn:En; [|discriminate]. apply Ok_inj in Ef. subst. eapply nth_error_In; eauto. }
      rewrite Hp in Eb. apply bind_Ok in Eb. destruct Eb as (ri & _ & Eb). apply bind_Ok in Eb. destruct Eb as (i0 & _ & Eb).
      apply bind_Ok in Eb. destruct Eb as (z0 & _ & Eb). cbv zeta in Eb. apply bind_Ok in Eb. destruct Eb as (fo1 & _ & Eb).
      apply bind_Ok in Eb. destruct Eb as (fo2 & _ & Eb). apply bind_Ok in Eb. destruct Eb as (v & Ev & Eb). apply Ok_inj in Eb. subst b.
      apply region_length in Ev. split; cbn [st_vec st_interp st_scale]; auto. congruence.
  Qed.

  (** ---- and gives the same image from any good state ---- *)
  Definition alike (a b : state T) : Prop := st_vec a = st_vec b /\ good m a /\ good m b.

  Lemma regions_same su a b : alike a b -> rel2 alike (regions_step N m su a) (regions_step N m su b).
  Proof.
    intros H. destruct Hm as [H0|H0].
    - unfold regions_step. rewrite H0. cbn. exact H.
    - unfold regions_step. apply rel2_for; auto. intros n x y Hn (Ev & Gx & Gy).
      apply rel2_bind with eq; [apply rel2_refl; auto|]. intros ri ? <-. cbv zeta.
      assert (Lx := g_interp Gx). assert (Ly := g_interp Gy).
      assert (Sx : length (st_scale x) = length (mo_funcs m)) by (rewrite (g_scale Gx); apply repeat_length).
      assert (Sy : length (st_scale y) = length (mo_funcs m)) by (rewrite (g_scale Gy); apply repeat_length).
      rewrite !point_state_none by auto.
      set (x' := mkState _ (st_interp x) _). set (y' := mkState _ (st_interp y) _).
      assert (ER : ComputeRegionAndDownsample N (ri_region ri) (ri_convolve ri) (fobjs N m su x) (fobjs N m su x') (st_vec x) =
                   ComputeRegionAndDownsample N (ri_region ri) (ri_convolve ri) (fobjs N m su y) (fobjs N m su y') (st_vec y)).
      { unfold ComputeRegionAndDownsample. cbv zeta. rewrite Ev.
        assert (K1 : forall p q, kahan_sum N (fobjs N m su x) false p q = kahan_sum N (fobjs N m su y) false p q).
        { intros p q. apply kahan_same, same_objs_false; lia. }
        assert (K2 : forall p q, kahan_sum N (fobjs N m su x') true p q = kahan_sum N (fobjs N m su y') true p q).
        { intros p q. apply kahan_same, no_point_all; auto; cbn [st_interp st_scale x' y']; lia. }
        match goal with |- context [map ?g (seq 0 ?n)] =>
          match goal with |- context [map ?h (seq 0 n)] =>
            lazymatch h with g => fail | _ => replace (map g (seq 0 n)) with (map h (seq 0 n)) by (apply map_ext; intros k; now rewrite K1) end end end.
        f_equal. apply map_ext. intros [k v]. now rewrite K2. }
      rewrite ER. 
      destruct (ComputeRegionAndDownsample N (ri_region ri) (ri_convolve ri) (fobjs N m su y) (fobjs N m su y') (st_vec y)) eqn:EE; cbn; auto.
      assert (Lv := region_length EE).
      split; [reflexivity|]. split; split; cbn [st_vec st_interp st_scale]; auto.
      + rewrite Lv. exact (g_vec Gy).
      + exact (g_scale Gx).
      + rewrite Lv. exact (g_vec Gy).
      + exact (g_scale Gy).
  Qed.

  Lemma create_same st st' p : good m st -> good m st' -> 0 < nModelColumns m ->
    rel2 alike (CreateModelImage N r2c c2r m st p) (CreateModelImage N r2c c2r m st' p).
  Proof.
    intros G G' Hn. unfold CreateModelImage. apply rel2_bind with eq; [apply rel2_refl; auto|]. intros su ? <-. cbv zeta.
    assert (Sx : length (st_scale st) = length (mo_funcs m)) by (rewrite (g_scale G); apply repeat_length).
    assert (Sy : length (st_scale st') = length (mo_funcs m)) by (rewrite (g_scale G'); apply repeat_length).
    assert (Lx := g_interp G). assert (Ly := g_interp G').
    assert (E1 : forall s, good m s -> for_ (nModelVals m) (fun k v => set v (k / nModelColumns m * nModelColumns m + k mod nModelColumns m)
        (kahan_sum N (fobjs N m su s) false (pix_x N m (k mod nModelColumns m)) (pix_y N m (k / nModelColumns m)))) (st_vec s)
      = Ok (map (fun k => kahan_sum N (fobjs N m su s) false (pix_x N m (k mod nModelColumns m)) (pix_y N m (k / nModelColumns m))) (seq 0 (nModelVals m)))).
    { intros s Gs. apply fill_all; [exact (g_vec Gs)|]. intros k v Hk. f_equal.
      rewrite (Nat.div_mod k (nModelColumns m)) at 3 by lia. lia. }
    rewrite !E1 by auto. cbn [bind].
    assert (EM : map (fun k => kahan_sum N (fobjs N m su st) false (pix_x N m (k mod nModelColumns m)) (pix_y N m (k / nModelColumns m))) (seq 0 (nModelVals m)) =
                 map (fun k => kahan_sum N (fobjs N m su st') false (pix_x N m (k mod nModelColumns m)) (pix_y N m (k / nModelColumns m))) (seq 0 (nModelVals m))).
    { apply map_ext. intros k. apply kahan_same, same_objs_false; lia. }
    rewrite EM. set (v1 := map _ _).
    apply rel2_bind with (fun a b => a = b /\ length a = nModelVals m).
    { assert (L1 : length v1 = nModelVals m) by (unfold v1; now rewrite map_length, seq_length).
      destruct (mo_psf m) as [[[? ?] pl]|]; cbn; auto.
      destruct (ConvolveImage N r2c c2r pl v1) eqn:EC; cbn; auto. apply convolve_length in EC. split; congruence. }
    intros v2 ? [<- L2].
    apply rel2_bind with alike; [|intros a b Hab; now apply regions_same].
    destruct (existsb is_point (mo_funcs m)) eqn:Ex.
    - set (s1 := mkState v2 _ (st_scale st)). set (s2 := mkState v2 _ (st_scale st')).
      assert (K : forall p q, kahan_sum N (fobjs N m su s1) true p q = kahan_sum N (fobjs N m su s2) true p q).
      { intros q r. apply kahan_same, same_objs_true; cbn [s1 s2 st_interp st_scale].
        - rewrite !point_state_length; auto.
        - rewrite (g_scale G), (g_scale G'). reflexivity.
        - intros n f i i' Hf Hp Hi Hi'. rewrite (point_state_nth Hf Hi Hp), (point_state_nth Hf Hi' Hp). reflexivity. }
      apply rel2_bind with (fun a b => a = b /\ length a = nModelVals m).
      + apply rel2_for; auto. intros k a b Hk [<- La]. destruct (get a _); cbn [bind]; [|cbn; auto..].
        rewrite K. destruct (set a _ _) eqn:ES; cbn; auto. apply set_length in ES. split; congruence.
      + intros a ? [<- La]. cbn. split; [reflexivity|]. split; split; cbn [st_vec st_interp st_scale]; auto; try (now apply point_state_length); [exact (g_scale G)|exact (g_scale G')].
    - cbn. split; [reflexivity|]. split; split; cbn [st_vec st_interp st_scale]; auto; [exact (g_scale G)|exact (g_scale G')].
  Qed.

  Lemma image_for_same st st' p : good m st -> good m st' -> 0 < nModelColumns m ->
    image_for N r2c c2r m st p = image_for N r2c c2r m st' p.
  Proof.
    intros G G' Hn. unfold image_for. apply rel2_eq. apply rel2_bind with alike; [now apply create_same|].
    intros a b (Ev & _ & _). unfold GetModelImageVector. rewrite Ev. apply rel2_refl. auto.
  Qed.

  (** ---- single-function images ---- *)
  Lemma fill2 {A} (d : A) (val : nat -> nat -> A) h w v v' : length v = w * h -> length v' = w * h ->
    for2 h w (fun i j v => set v (i * w + j) (val i j)) v = for2 h w (fun i j v => set v (i * w + j) (val i j)) v' /\
    exists out, for2 h w (fun i j v => set v (i * w + j) (val i j)) v = Ok out /\ length out = w * h.
  Proof.
    intros L L'.
    assert (H : forall u, length u = w * h -> exists out, for2 h w (fun i j v => set v (i * w + j) (val i j)) u = Ok out /\ length out = length u /\
      forall i j, i < h -> j < w -> nth (i * w + j) out d = val i j).
    { intros u Lu. destruct (@write2 A d (fun i j => Ok (val i j)) val (fun i j => i * w + j) h w u) as (o & E & Lo & V & _); auto.
      - intros i j Hi Hj. rewrite Lu. now apply rowcol_lt.
      - intros i j i' j' _ Hj _ Hj' E. apply rowcol_inj in E; auto.
      - exists o. split; [rewrite <- E; reflexivity|auto]. }
    destruct (H v L) as (o & E & Lo & V). destruct (H v' L') as (o' & E' & Lo' & V'). rewrite E, E'. split; [|exists o; split; auto; congruence].
    f_equal. apply nth_ext with (d := d) (d' := d); [congruence|]. intros k Hk. rewrite Lo, L in Hk.
    assert (Hw : 0 < w) by (destruct w; [cbn in Hk; lia|lia]).
    assert (Hq : k / w < h) by (apply Nat.div_lt_upper_bound; lia). assert (Hr : k mod w < w) by (apply Nat.mod_upper_bound; lia).
    replace k with (k / w * w + k mod w) by (rewrite (Nat.div_mod k w) at 3 by lia; lia). rewrite V, V' by auto. reflexivity.
  Qed.

  Lemma get_obj su st idx : get (fobjs N m su st) idx =
    match nth_error (mo_funcs m) idx, nth_error su idx, nth_error (st_interp st) idx, nth_error (st_scale st) idx with
    | Some f, Some s, Some i, Some z => Ok (fobj_of N f s i z) | _, _, _, _ => Undef end.
  Proof.
    clear Hm. unfold fobjs, get. generalize (st_interp st) as ii, (st_scale st) as zz. revert su idx.
    induction (mo_funcs m) as [|f fs IH]; intros [|s su] [|idx] [|i ii] [|z zz]; cbn [combine map nth_error]; auto;
      try apply IH; try (destruct (nth_error fs idx); auto; destruct (nth_error su idx); auto; destruct (nth_error ii idx); auto).
  Qed.

  Lemma single_same st st' p idx : good m st -> good m st' -> 0 < nModelColumns m ->
    single_for N r2c c2r m st p idx = single_for N r2c c2r m st' p idx.
  Proof.
    intros G G' Hn. unfold single_for. apply rel2_eq.
    apply rel2_bind with (fun a b : list T * state T => fst a = fst b); [|intros a b E; cbn; exact E].
    unfold GetSingleFunctionImage. destruct (forallb (nfin N) p); [|cbn; auto].
    apply rel2_bind with eq; [apply rel2_refl; auto|]. intros su ? <-.
    destruct (get (mo_funcs m) idx) as [f| | |] eqn:Ef; cbn [bind]; [|cbn; auto..].
    assert (Hf : nth_error (mo_funcs m) idx = Some f).
    { unfold get in Ef. destruct (nth_error (mo_funcs m) idx); [apply Ok_inj in Ef; now subst|discriminate]. }
    assert (Hidx : idx < length (mo_funcs m)) by (apply nth_error_Some; congruence).
    cbv zeta.
    set (s1 := if is_point f then mkState (st_vec st) (upd (st_interp st) idx (mo_interp m)) (st_scale st) else st).
    set (s2 := if is_point f then mkState (st_vec st') (upd (st_interp st') idx (mo_interp m)) (st_scale st') else st').
    assert (G1 : good m s1) by (unfold s1; destruct G; destruct (is_point f); split; auto; cbn [st_interp]; now rewrite upd_length).
    assert (G2 : good m s2) by (unfold s2; destruct G'; destruct (is_point f); split; auto; cbn [st_interp]; now rewrite upd_length).
    assert (Pi : is_point f = true -> nth_error (st_interp s1) idx = Some (mo_interp m) /\ nth_error (st_interp s2) idx = Some (mo_interp m)).
    { intros Hp. unfold s1, s2. rewrite Hp. cbn [st_interp]. rewrite !nth_error_upd, Nat.eqb_refl, (g_interp G), (g_interp G').
      assert (idx <? length (mo_funcs m) = true) as -> by (apply Nat.ltb_lt; lia). split; reflexivity. }
    clearbody s1 s2.
    (* the function objects of two good states whose point sources agree *)
    assert (OB : forall a b : state T, length (st_interp a) = length (mo_funcs m) -> length (st_interp b) = length (mo_funcs m) ->
      length (st_scale a) = length (mo_funcs m) -> length (st_scale b) = length (mo_funcs m) ->
      (is_point f = true -> nth_error (st_interp a) idx = nth_error (st_interp b) idx /\ nth_error (st_scale a) idx = nth_error (st_scale b) idx) ->
      rel2 (fun x y => fo_point x = fo_point y /\ fo_point x = is_point f /\ forall u v, fo_value x u v = fo_value y u v) (get (fobjs N m su a) idx) (get (fobjs N m su b) idx)).
    { intros a b La Lb La' Lb' Hab. rewrite !get_obj, Hf. destruct (nth_error su idx) as [s|]; [|cbn; auto].
      destruct (nth_error (st_interp a) idx) as [i|] eqn:Ei; [|apply nth_error_None in Ei; lia].
      destruct (nth_error (st_interp b) idx) as [i'|] eqn:Ei'; [|apply nth_error_None in Ei'; lia].
      destruct (nth_error (st_scale a) idx) as [z|] eqn:Ez; [|apply nth_error_None in Ez; lia].
      destruct (nth_error (st_scale b) idx) as [z'|] eqn:Ez'; [|apply nth_error_None in Ez'; lia].
      cbn [rel2]. rewrite !fobj_point. split; [reflexivity|]. split; [reflexivity|]. intros u v. destruct (is_point f) eqn:Hp.
      - destruct (Hab eq_refl) as [A B]. injection A as ->. injection B as ->. reflexivity.
      - now apply fobj_plain_value. }
    assert (SL : forall a, good m a -> length (st_scale a) = length (mo_funcs m)) by (intros a Ga; rewrite (g_scale Ga); apply repeat_length).
    apply rel2_bind with (fun x y => fo_point x = fo_point y /\ fo_point x = is_point f /\ forall u v, fo_value x u v = fo_value y u v).
    { apply OB; auto; try (apply g_interp; auto). intros Hp. destruct (Pi Hp) as [-> ->]. rewrite (g_scale G1), (g_scale G2). auto. }
    intros fo fo' (_ & _ & Vfo).
    apply rel2_bind with (fun a b => a = b /\ length a = nModelVals m).
    { destruct (@fill2 T (nofZ N 0) (fun i j => fo_value fo (pix_x N m j) (pix_y N m i)) (nModelRows m) (nModelColumns m) (st_vec s1) (st_vec s2) (g_vec G1) (g_vec G2)) as (Ea & out & Eo & Lo).
      assert (Eb : for2 (nModelRows m) (nModelColumns m) (fun i j v => set v (i * nModelColumns m + j) (fo_value fo' (pix_x N m j) (pix_y N m i))) (st_vec s2) =
                   for2 (nModelRows m) (nModelColumns m) (fun i j v => set v (i * nModelColumns m + j) (fo_value fo (pix_x N m j) (pix_y N m i))) (st_vec s2)).
      { unfold for2. apply for_ext. intros i a _. apply for_ext. intros j b _. now rewrite Vfo. }
      rewrite Eb, <- Ea, Eo. cbn. auto. }
    intros v1 ? [<- L1].
    apply rel2_bind with (fun a b => a = b /\ length a = nModelVals m).
    { destruct (mo_psf m) as [[[? ?] pl]|]; [|cbn; auto]. destruct (is_point f); [cbn; auto|].
      destruct (ConvolveImage N r2c c2r pl v1) eqn:EC; cbn; auto. apply convolve_length in EC. split; congruence. }
    intros v2 ? [<- L2].
    apply rel2_bind with (fun a b => st_vec a = st_vec b).
    - unfold regions_step1. rewrite Ef. cbn [bind].
      destruct Hm as [H0|H0]; [rewrite H0; cbn; reflexivity|].
      assert (Hp : is_point f = false).
      { destruct (is_point f) eqn:Hp; auto. rewrite <- H0. symmetry. apply existsb_exists. exists f. split; auto. eapply nth_error_In; eauto. }
      apply rel2_imp with alike; [intros x y (E & _); exact E|].
      apply rel2_for.
      { split; [reflexivity|]. split; split; cbn [st_vec st_interp st_scale]; auto; try (apply g_interp; auto); try (apply g_scale; auto). }
      intros n a b Hn' (Ev & Ga & Gb). rewrite Hp.
      apply rel2_bind with eq; [apply rel2_refl; auto|]. intros ri ? <-.
      assert (GI : forall x : state T, good m x -> exists i z, get (st_interp x) idx = Ok i /\ get (st_scale x) idx = Ok z).
      { intros x Gx. destruct (nth_error (st_interp x) idx) as [i|] eqn:Ei; [|apply nth_error_None in Ei; rewrite (g_interp Gx) in Ei; lia].
        destruct (nth_error (st_scale x) idx) as [z|] eqn:Ez; [|apply nth_error_None in Ez; rewrite (SL _ Gx) in Ez; lia].
        exists i, z. unfold get. rewrite Ei, Ez. auto. }
      destruct (GI a Ga) as (i & z & -> & ->). destruct (GI b Gb) as (i' & z' & -> & ->). cbn [bind]. cbv zeta.
      assert (OBab : rel2 (fun x y => fo_point x = fo_point y /\ fo_point x = is_point f /\ forall u v, fo_value x u v = fo_value y u v) (get (fobjs N m su a) idx) (get (fobjs N m su b) idx)).
      { apply OB; auto; try (apply g_interp; auto). intros C. congruence. }
      apply rel2_bind with (fun x y => fo_point x = fo_point y /\ fo_point x = is_point f /\ forall u v, fo_value x u v = fo_value y u v); [exact OBab|].
      intros fa fb (P1 & P2 & P3).
      apply rel2_bind with (fun x y => fo_point x = fo_point y /\ fo_point x = is_point f /\ forall u v, fo_value x u v = fo_value y u v); [exact OBab|].
      intros fa' fb' (Q1 & Q2 & Q3).
      assert (ER : ComputeRegionAndDownsample N (ri_region ri) (ri_convolve ri) [fa] [fa'] (st_vec a) = ComputeRegionAndDownsample N (ri_region ri) (ri_convolve ri) [fb] [fb'] (st_vec b)).
      { unfold ComputeRegionAndDownsample. cbv zeta. rewrite Ev.
        assert (K1 : forall p q, kahan_sum N [fa] false p q = kahan_sum N [fb] false p q).
        { intros q r. apply kahan_same. constructor; [|constructor]. split; auto. }
        assert (K2 : forall p q, kahan_sum N [fa'] true p q = kahan_sum N [fb'] true p q).
        { intros q r. apply kahan_same. constructor; [|constructor]. split; auto. }
        match goal with |- context [map ?g (seq 0 ?n)] =>
          match goal with |- context [map ?h (seq 0 n)] =>
            lazymatch h with g => fail | _ => replace (map g (seq 0 n)) with (map h (seq 0 n)) by (apply map_ext; intros k; now rewrite K1) end end end.
        f_equal. apply map_ext. intros [k v]. now rewrite K2. }
      rewrite ER. destruct (ComputeRegionAndDownsample _ _ _ [fb] _ _) eqn:EE; cbn; auto.
      assert (Lv := region_length EE). split; [reflexivity|].
      split; split; cbn [st_vec st_interp st_scale]; try (apply g_interp; auto); try (apply g_scale; auto); rewrite Lv; exact (g_vec Gb).
    - intros a b Ev. unfold GetModelImageVector. rewrite Ev.
      match goal with |- rel2 _ (bind ?x _) _ => destruct x; cbn; auto end.
  Qed.

  Lemma history_good cs : forall st st', good m st -> history N r2c c2r m st cs = Ok st' -> good m st'.
  Proof.
    induction cs as [|c cs IH]; intros st st' G E; cbn [history] in E.
    - apply Ok_inj in E. now subst.
    - apply bind_Ok in E. destruct E as (s & Es & E). apply (IH s); auto.
      destruct c as [p|p idx]; cbn [perform] in Es; [eapply create_good; eauto|].
      apply bind_Ok in Es. destruct Es as (r & Er & Es). apply Ok_inj in Es. subst s. eapply single_good; eauto.
  Qed.
  Lemma initial_good garbage : length garbage = length (mo_funcs m) -> good m (initial N m garbage).
  Proof. intros L. split; cbn [initial st_vec st_interp st_scale]; auto. apply repeat_length. Qed.
End H.
