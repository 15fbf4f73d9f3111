From Coq Require Import ZArith List Bool Arith Lia Permutation Reals Lra.
From Verif Require Import Base Num Sums Params_Model Params_Spec Params_Proof Conv_Model Downsample_Model Image_Model Image_Spec Image_Proof Par_Model Par_Spec Par_Proof Par_Flux Par_Image.
Import ListNotations.
Set Implicit Arguments.
Unset Strict Implicit.

Lemma upd_self {A} (l : list A) : forall k r, nth_error l k = Some r -> upd l k r = l.
Proof. induction l as [|a l IH]; intros [|k] r Q; try discriminate Q; cbn; [injection Q as ->; reflexivity|]. f_equal. apply IH. exact Q. Qed.
(** ---- offsets ---- *)
Lemma offsets_ok {T} (params : list T) szs flags calls : setup_calls params szs flags = Ok calls -> flux_offsets szs flags = Ok (map (fun c => fst (fst c)) calls).
Proof.
  unfold setup_calls, flux_offsets, for_. intros E. apply bind_Ok in E. destruct E as ([[o xy] cl] & E & E2). apply Ok_inj in E2. cbn [snd] in E2. subst cl.
  enough (X : forall n i o xy cs o' xy' cs', for_from i n (fun n '(offset, xy, calls) =>
      do flag <- get flags n; do sz <- get szs n;
      do st <- (if (flag : bool) then do x0 <- get params offset; do y0 <- get params (offset + 1); Ok (offset + 2, Some (x0, y0)) else Ok (offset, xy));
      let '(offset, xy) := st in
      match xy with Some (x0, y0) => Ok (offset + sz, xy, calls ++ [(offset, x0, y0)]) | None => Undef end) (o, xy, cs) = Ok (o', xy', cs') ->
    for_from i n (fun n '(offset, offsets) =>
      do flag <- get flags n; do sz <- get szs n;
      let offset := if (flag : bool) then (offset + 2)%nat else offset in
      Ok ((offset + sz)%nat, offsets ++ [offset])) (o, map (fun c => fst (fst c)) cs) = Ok (o', map (fun c => fst (fst c)) cs')).
  { specialize (X _ _ _ _ _ _ _ _ E). cbn [map] in X. rewrite X. reflexivity. }
  clear. induction n as [|n IH]; intros i o xy cs o' xy' cs' E; cbn [for_from] in E |- *.
  - apply Ok_inj in E. injection E as <- _ <-. reflexivity.
  - apply bind_Ok in E. destruct E as ([[o1 xy1] cs1] & E1 & E). apply bind_Ok in E1. destruct E1 as (flag & -> & E1). apply bind_Ok in E1. destruct E1 as (sz & -> & E1). cbn [bind]. cbv zeta.
    apply bind_Ok in E1. destruct E1 as ([o2 xy2] & E2 & E1). assert (O2 : o2 = if flag then o + 2 else o).
    { destruct flag; [|apply Ok_inj in E2; injection E2 as <- _; reflexivity]. apply bind_Ok in E2. destruct E2 as (a & _ & E2). apply bind_Ok in E2. destruct E2 as (b & _ & E2). apply Ok_inj in E2. injection E2 as <- _. reflexivity. }
    destruct xy2 as [[x0 y0]|]; [|discriminate E1]. apply Ok_inj in E1. injection E1 as <- <- <-. specialize (IH _ _ _ _ _ _ _ E). rewrite map_app in IH. cbn [map fst] in IH. rewrite <- O2. exact IH.
Qed.

(** ---- the thread's sums as sums over pixels, any arithmetic ---- *)
Section Any.
Variable T : Type.
Variable N : Num T.
Definition pixel_value (val : T -> T -> T) (p : nat * nat) : T := val (nofZ N (Z.of_nat (fst p) + 1)) (nofZ N (Z.of_nat (snd p) + 1)).
Lemma rows_sum_left val w rows : forall s, rows_sum N val w rows s = fold_left (nadd N) (map (pixel_value val) (rows_pixels w rows)) s.
Proof.
  induction rows as [|r rows IH]; intros s; [reflexivity|]. cbn [rows_sum fold_left rows_pixels flat_map]. rewrite map_app, fold_left_app. rewrite <- IH. unfold rows_sum. f_equal.
  unfold row_sum. rewrite map_map. generalize (seq 0 w). intros l. revert s. induction l as [|c l IHl]; intros s; [reflexivity|]. cbn. apply IHl.
Qed.
Lemma share_left nThreads chunk f w h t : share N nThreads chunk f w h t = sum_left N (map (pixel_value (fo_value f)) (rows_pixels w (rows_of nThreads chunk h t))).
Proof. unfold share. rewrite rows_sum_left. reflexivity. Qed.
Lemma flux_sum_ok nThreads chunk f w h sched :
  flux_sum N nThreads chunk (pure f) w h sched = Fuel \/ exists order, Permutation order (seq 0 nThreads) /\
    flux_sum N nThreads chunk (pure f) w h sched = Ok (sum_left N (map (fun t => sum_left N (map (pixel_value (fo_value f)) (rows_pixels w (rows_of nThreads chunk h t)))) order)).
Proof.
  unfold flux_sum, outcome. destruct (@flux_ends T N nThreads chunk f w h) as (b & H). destruct (exec sched _) as [[m ps]|] eqn:E; [|left; reflexivity].
  destruct (H _ _ E) as (_ & U & _ & F & _). destruct (existsb is_bad ps) eqn:B; [exfalso; apply U; exact (existsb_bad B)|].
  destruct (forallb is_stop ps) eqn:S'; [|left; reflexivity]. destruct (F (forallb_stop S')) as (order & P & V). right. exists order. split; [exact P|]. cbn [fst] in V. rewrite V.
  f_equal. unfold sum_left. f_equal. apply map_ext. intros t. apply share_left.
Qed.
Lemma flux_sum_exists nThreads chunk f w h : exists sched order, Permutation order (seq 0 nThreads) /\
    flux_sum N nThreads chunk (pure f) w h sched = Ok (sum_left N (map (fun t => sum_left N (map (pixel_value (fo_value f)) (rows_pixels w (rows_of nThreads chunk h t)))) order)).
Proof.
  destruct (@run_exists T _ _ (@flux_ends T N nThreads chunk f w h)) as (sched & [m ps] & E & F). exists sched.
  destruct (@flux_sum_ok nThreads chunk f w h sched) as [X|X]; [|exact X]. exfalso. unfold flux_sum, outcome in X. rewrite E in X.
  destruct (existsb is_bad ps); [discriminate X|]. assert (Z : forallb is_stop ps = true) by (apply forallb_forall; intros p I; rewrite (F p I); reflexivity). rewrite Z in X.
  destruct (m (Shared VtotalComponentFlux)); discriminate X.
Qed.
End Any.

(** ---- exact arithmetic ---- *)
Local Open Scope R_scope.
Lemma rsuml_perm (l l' : list R) : Permutation l l' -> rsuml l = rsuml l'.
Proof. induction 1; cbn in *; unfold rsuml in *; lra. Qed.
Lemma sum_leftR (l : list R) : sum_left NumR l = rsuml l.
Proof. unfold sum_left. cbn. rewrite fold_left_rsuml. lra. Qed.
Lemma rsuml_flat {A} (g : A -> list R) l : rsuml (flat_map g l) = rsuml (map (fun a => rsuml (g a)) l).
Proof. induction l as [|a l IH]; [reflexivity|]. cbn. rewrite rsuml_app, IH. reflexivity. Qed.
Lemma rsuml_zero {A} (l : list A) : rsuml (map (fun _ => 0) l) = 0.
Proof. induction l as [|a l IH]; [reflexivity|]. cbn in *. unfold rsuml in *. rewrite IH. lra. Qed.
Lemma rsuml_plus {A} (f g : A -> R) l : rsuml (map (fun a => f a + g a) l) = rsuml (map f l) + rsuml (map g l).
Proof. induction l as [|a l IH]; cbn in *; unfold rsuml in *; lra. Qed.
Lemma one_of (x : R) n : forall b o, (b <= o < b + n)%nat -> rsuml (map (fun t => if Nat.eqb o t then x else 0) (seq b n)) = x.
Proof.
  induction n as [|n IH]; intros b o H; [lia|]. cbn [seq map]. change (rsuml (?a :: ?l)) with (a + rsuml l). destruct (Nat.eqb o b) eqn:E.
  - apply Nat.eqb_eq in E. subst o. rewrite (map_ext_in _ (fun _ => 0)); [rewrite rsuml_zero; lra|]. intros t Ht. apply in_seq in Ht. replace (Nat.eqb b t) with false; [reflexivity|]. symmetry. apply Nat.eqb_neq. lia.
  - apply Nat.eqb_neq in E. rewrite IH by lia. lra.
Qed.
Lemma dealt (own : nat -> nat) (g : nat -> R) n l : (forall i, (own i < n)%nat) -> rsuml (map (fun t => rsuml (map g (filter (fun i => Nat.eqb (own i) t) l))) (seq 0 n)) = rsuml (map g l).
Proof.
  intros H. induction l as [|i l IH]; [apply rsuml_zero|]. cbn [filter map]. change (rsuml (g i :: map g l)) with (g i + rsuml (map g l)). rewrite <- IH.
  rewrite <- (@one_of (g i) n 0 (own i)) at 1 by (pose proof (H i); lia). rewrite <- rsuml_plus. f_equal. apply map_ext. intros t. destruct (Nat.eqb (own i) t); cbn; unfold rsuml; lra.
Qed.
Lemma share_total nThreads chunk f w h order : (0 < nThreads)%nat -> Permutation order (seq 0 nThreads) ->
  sum_left NumR (map (fun t => sum_left NumR (map (pixel_value NumR (fo_value f)) (rows_pixels w (rows_of nThreads chunk h t)))) order) =
  rsum h (fun r => rsum w (fun k => fo_value f (INR k + 1) (INR r + 1))).
Proof.
  intros Ht P. rewrite sum_leftR. rewrite (rsuml_perm (Permutation_map _ P)).
  rewrite (map_ext _ (fun t => rsuml (map (fun r => rsum w (fun k => fo_value f (INR k + 1) (INR r + 1))) (rows_of nThreads chunk h t)))).
  - unfold rows_of. rewrite (@dealt (fun r => Nat.modulo (Nat.div r chunk) nThreads)); [apply rsuml_map_seq|]. intros i. apply Nat.mod_upper_bound. lia.
  - intros t. rewrite sum_leftR. unfold rows_pixels. rewrite flat_map_concat_map, concat_map, map_map, <- flat_map_concat_map, rsuml_flat. f_equal. apply map_ext. intros r.
    rewrite map_map. rewrite <- rsuml_map_seq. f_equal. apply map_ext. intros k. unfold pixel_value. cbn. rewrite !plus_IZR, <- !INR_IZR_INZ. reflexivity.
Qed.

Definition flux_of (c : component R) (e : R * R * list R) (w h : nat) : R := component_flux c (snd e) w h.
Section Final.
Variable nThreads chunk : nat.
Hypothesis Hthreads : (0 < nThreads)%nat.
Variable cs : list (component R).
Variable bs : list (blk R).
Variable flags : list bool.
Variable w h : nat.
Variable fluxes : list R.
Hypothesis Hb : blocks_ok bs.
Hypothesis Hf : map (fun c => fn_nParams (co_func c)) cs = sizes bs.
Hypothesis Hfl : DefineFunctionSets (length cs) (starts 0 bs) = Ok flags.
Hypothesis Hw : (1 <= w)%nat.
Hypothesis Hh : (1 <= h)%nat.
Hypothesis Lf : (length cs <= length fluxes)%nat.
Hypothesis Hpoint : forall c p x y, In c cs -> is_point (co_func c) = true -> co_total c p x y <> None.

Definition new_flux (n : nat) (r0 : R) : R := match nth_error cs n, nth_error (seen bs) n with Some c, Some e => if co_background c then r0 else component_flux c (snd e) w h | _, _ => r0 end.
Definition new_total (k : nat) : R := rsuml (map (fun ce => if co_background (fst ce) then 0 else component_flux (fst ce) (snd (snd ce)) w h) (firstn k (combine cs (seen bs)))).
Lemma lens : length cs = length (seen bs).
Proof.
  clear - Hf. assert (length (sizes bs) = length (seen bs)).
  { clear. unfold sizes, seen. induction bs as [|b l IH]; [reflexivity|]. cbn. rewrite !app_length, !map_length, IH. reflexivity. }
  rewrite <- H, <- Hf, map_length. reflexivity.
Qed.
Lemma half (k : nat) : ndec NumR 5 1 * IZR (Z.of_nat k) = INR k / 2.
Proof. cbn. rewrite <- INR_IZR_INZ. lra. Qed.
Definition comp_fobj (c : component R) (e : R * R * list R) : fobj R := fobj_of NumR (co_func c) (INR w / 2, INR h / 2, snd e) (fun _ _ => 0) 1.
(** some loop was cut off *)
Definition cut (sched : nat -> list nat) : Prop := exists k c e, nth_error cs k = Some c /\ nth_error (seen bs) k = Some e /\ flux_sum NumR nThreads chunk (pure (comp_fobj c e)) w h (sched k) = Fuel.
Definition uptoc {A} (S : Prop) (a b : res A) : Prop := S /\ a = Fuel \/ a = b.
Lemma total_ok (sched : nat -> list nat) :
  uptoc (cut sched) (FindTotalFluxes NumR nThreads chunk cs flags (flat bs) w h fluxes sched)
    (Ok (new_total (length cs), map (fun '(n, r0) => new_flux n r0) (combine (seq 0 (length fluxes)) fluxes))).
Proof.
  unfold FindTotalFluxes. replace (Nat.leb 1 w) with true by (symmetry; apply Nat.leb_le; exact Hw). replace (Nat.leb 1 h) with true by (symmetry; apply Nat.leb_le; exact Hh). cbn [andb]. cbv zeta.
  destruct (layout_ok Hb) as (flags' & calls & E1 & _ & E3 & E4 & _). rewrite <- Hf, map_length, Hfl in E1. apply Ok_inj in E1. subst flags'.
  rewrite Hf, (offsets_ok E3). cbn [bind]. pose proof E4 as E4'. apply Forall2_nth_error in E4'. destruct E4' as (L4 & N4).
  set (body := fun n (s : R * list R) => _). 
  assert (X : forall k, (k <= length cs)%nat -> uptoc (cut sched) (for_ k body (0, fluxes)) (Ok (new_total k, map (fun '(n, r0) => if Nat.ltb n k then new_flux n r0 else r0) (combine (seq 0 (length fluxes)) fluxes)))).
  { induction k as [|k IH]; intros Hk.
    - right. cbn. f_equal. f_equal. clear. transitivity (map (@snd nat R) (combine (seq 0 (length fluxes)) fluxes)).
      + symmetry. generalize 0%nat. induction fluxes as [|a l IH]; intros b; [reflexivity|]. cbn. f_equal. apply IH.
      + apply map_ext. intros [n r]. reflexivity.
    - rewrite for_S. destruct (IH ltac:(lia)) as [(CU & ->)| ->]; [left; split; [exact CU|reflexivity]|]. cbn [bind].
      destruct (nth_error cs k) as [c|] eqn:Ec; [|apply nth_error_None in Ec; lia]. destruct (nth_error (seen bs) k) as [[[x0 y0] p]|] eqn:Ee; [|apply nth_error_None in Ee; rewrite <- lens in Ee; lia].
      destruct (nth_error calls k) as [[[o x1] y1]|] eqn:Eo; [|apply nth_error_None in Eo; rewrite L4, <- lens in Eo; lia].
      destruct (N4 k) as (a4 & b4 & A4 & B4 & S4); [apply nth_error_Some; congruence|]. rewrite Eo in A4. injection A4 as <-. rewrite Ee in B4. injection B4 as <-. cbn in S4. destruct S4 as (_ & _ & S4).
      assert (Lp : length p = fn_nParams (co_func c)).
      { assert (Z : nth_error (sizes bs) k = Some (length p)). { clear - Ee. assert (Y : sizes bs = map (fun e => length (snd e)) (seen bs)). { unfold sizes, seen. clear. induction bs as [|b l IH]; [reflexivity|]. cbn. rewrite map_app, map_map, IH. reflexivity. } rewrite Y, nth_error_map, Ee. reflexivity. }
        rewrite <- Hf, nth_error_map, Ec in Z. injection Z as Z. symmetry. exact Z. }
      unfold body at 1. assert (G1 : get cs k = Ok c) by (apply get_Ok_iff; exact Ec). rewrite G1. cbn [bind].
      assert (G2 : get (map (fun c => fst (fst c)) calls) k = Ok o) by (apply get_Ok_iff; rewrite nth_error_map, Eo; reflexivity). rewrite G2. cbn [bind]. rewrite <- Lp, S4. cbn [bind].
      assert (NT : new_total (S k) = new_total k + (if co_background c then 0 else component_flux c p w h)).
      { unfold new_total. assert (Q : nth_error (combine cs (seen bs)) k = Some (c, (x0, y0, p))).
        { clear - Ec Ee. revert k Ec Ee. generalize (seen bs). induction cs as [|a l IH]; intros [|e es] [|k] Ec Ee; try discriminate; cbn in *; [congruence|]. apply IH; assumption. }
        revert Q. generalize (combine cs (seen bs)). clear. induction k as [|k IH]; intros [|a l] Q; try discriminate Q.
        - injection Q as ->. cbn. unfold rsuml; cbn. lra.
        - cbn [firstn map]. change (rsuml (?a :: ?l)) with (a + rsuml l). specialize (IH l Q). cbn [firstn] in IH. rewrite IH. lra. }
      assert (NF : forall n, new_flux k n = if co_background c then n else component_flux c p w h) by (intros n; unfold new_flux; rewrite Ec, Ee; reflexivity).
      set (fl := map (fun '(n, r0) => if Nat.ltb n k then new_flux n r0 else r0) (combine (seq 0 (length fluxes)) fluxes)).
      assert (FL : map (fun '(n, r0) => if Nat.ltb n (S k) then new_flux n r0 else r0) (combine (seq 0 (length fluxes)) fluxes) =
        upd fl k (new_flux k (nth k fluxes 0))).
      { assert (Lfl : (k < length fluxes)%nat) by lia. unfold fl. clear - Lfl.
        assert (Y : forall b (l : list R), (k < length l)%nat -> map (fun '(n, r0) => if Nat.ltb n (S (b + k)) then new_flux n r0 else r0) (combine (seq b (length l)) l) =
          upd (map (fun '(n, r0) => if Nat.ltb n (b + k) then new_flux n r0 else r0) (combine (seq b (length l)) l)) k (new_flux (b + k) (nth k l 0))).
        { clear. induction k as [|k IH]; intros b [|a l] H; cbn [length] in H; try lia.
          - cbn [length seq combine map upd]. rewrite Nat.add_0_r. replace (Nat.ltb b (S b)) with true by (symmetry; apply Nat.ltb_lt; lia). cbn [nth]. f_equal.
            apply map_ext_in. intros [n r] I. apply in_combine_l in I. apply in_seq in I. replace (Nat.ltb n (S b)) with false by (symmetry; apply Nat.ltb_ge; lia). replace (Nat.ltb n b) with false by (symmetry; apply Nat.ltb_ge; lia). reflexivity.
          - cbn [length seq combine map upd nth]. f_equal.
            + replace (Nat.ltb b (S (b + S k))) with true by (symmetry; apply Nat.ltb_lt; lia). replace (Nat.ltb b (b + S k)) with true by (symmetry; apply Nat.ltb_lt; lia). reflexivity.
            + specialize (IH (S b) l ltac:(lia)). replace (b + S k)%nat with (S b + k)%nat by lia. exact IH. }
        exact (Y 0%nat fluxes Lfl). }
      assert (Lfl : length fl = length fluxes) by (unfold fl; rewrite map_length, combine_length, seq_length; lia).
      rewrite NT, FL, NF. destruct (co_background c) eqn:B.
      + right. f_equal. f_equal; [lra|]. assert (Q : nth_error fl k = Some (nth k fluxes 0)).
        { unfold fl. rewrite nth_error_map. assert (Lk : (k < length fluxes)%nat) by lia. rewrite (combine_seq_nth' 0 (@nth_error_nth' R fluxes k 0 Lk)). cbn [option_map]. rewrite Nat.add_0_l, Nat.ltb_irrefl. reflexivity. }
        symmetry. exact (upd_self Q).
      + assert (CF : uptoc (cut sched) (match co_total c p (ndec NumR 5 1 * IZR (Z.of_nat w)) (ndec NumR 5 1 * IZR (Z.of_nat h)) with Some r => Ok r
            | None => flux_sum NumR nThreads chunk (pure (fobj_of NumR (co_func c) (ndec NumR 5 1 * IZR (Z.of_nat w), ndec NumR 5 1 * IZR (Z.of_nat h), p) (fun _ _ => 0) 1)) w h (sched k) end) (Ok (component_flux c p w h))).
        { rewrite !half. unfold component_flux. cbv zeta. destruct (co_total c p (INR w / 2) (INR h / 2)) as [r|] eqn:Ct; [right; reflexivity|].
          destruct (flux_sum_ok NumR nThreads chunk (fobj_of NumR (co_func c) (INR w / 2, INR h / 2, p) (fun _ _ => 0) 1) w h (sched k)) as [FU|(order & P & ->)]; [left; split; [exists k, c, (x0, y0, p); auto|exact FU]|]. right. rewrite (share_total chunk _ w h Hthreads P).
          destruct (fn_kind (co_func c)) as [g|isc] eqn:K; [unfold fobj_of; rewrite K; reflexivity|]. exfalso. apply (@Hpoint c p (INR w / 2) (INR h / 2) (nth_error_In _ _ Ec)); [unfold is_point; rewrite K; reflexivity|exact Ct]. }
        change (uptoc (cut sched) (do totalComponentFlux <- (match co_total c p (ndec NumR 5 1 * IZR (Z.of_nat w)) (ndec NumR 5 1 * IZR (Z.of_nat h)) with Some r => Ok r
            | None => flux_sum NumR nThreads chunk (pure (fobj_of NumR (co_func c) (ndec NumR 5 1 * IZR (Z.of_nat w), ndec NumR 5 1 * IZR (Z.of_nat h), p) (fun _ _ => 0) 1)) w h (sched k) end);
            do fluxes <- set fl k totalComponentFlux; Ok (new_total k + totalComponentFlux, fluxes)) (Ok (new_total k + component_flux c p w h, upd fl k (component_flux c p w h)))).
        destruct CF as [(CU & ->)| ->]; [left; split; [exact CU|reflexivity]|]. cbn [bind]. rewrite set_lt by lia. right. reflexivity. }
  specialize (X (length cs) ltac:(lia)). change (nofZ NumR 0) with 0. assert (Z : map (fun '(n, r0) => if Nat.ltb n (length cs) then new_flux n r0 else r0) (combine (seq 0 (length fluxes)) fluxes) = map (fun '(n, r0) => new_flux n r0) (combine (seq 0 (length fluxes)) fluxes)).
  { apply map_ext. intros [n r]. destruct (Nat.ltb n (length cs)) eqn:Q; [reflexivity|]. apply Nat.ltb_ge in Q. unfold new_flux. replace (nth_error cs n) with (@None (component R)); [reflexivity|]. symmetry. apply nth_error_None. exact Q. }
  rewrite Z in X. exact X.
Qed.
Lemma total_exists : exists sched, FindTotalFluxes NumR nThreads chunk cs flags (flat bs) w h fluxes sched =
    Ok (new_total (length cs), map (fun '(n, r0) => new_flux n r0) (combine (seq 0 (length fluxes)) fluxes)).
Proof.
  assert (X : forall (l : list (component R * (R * R * list R))), exists sl, forall k ce, nth_error l k = Some ce -> flux_sum NumR nThreads chunk (pure (comp_fobj (fst ce) (snd ce))) w h (nth k sl []) <> Fuel).
  { induction l as [|ce l IH]; [exists []; intros [|k] ce H; discriminate H|]. destruct IH as (sl & IH).
    destruct (@flux_sum_exists R NumR nThreads chunk (comp_fobj (fst ce) (snd ce)) w h) as (s & order & _ & E). exists (s :: sl).
    intros [|k] ce' H; [injection H as <-; cbn [nth]; rewrite E; discriminate|exact (IH k ce' H)]. }
  destruct (X (combine cs (seen bs))) as (sl & H). exists (fun k => nth k sl []). destruct (total_ok (fun k => nth k sl [])) as [((k & c & e & E1 & E2 & E3) & _)|E]; [|exact E].
  exfalso. apply (H k (c, e)); [|exact E3]. clear - E1 E2. revert k E1 E2. generalize (seen bs). induction cs as [|a l IH]; intros [|e' es] [|k] E1 E2; try discriminate; cbn in *; [congruence|]. apply IH; assumption.
Qed.
End Final.
