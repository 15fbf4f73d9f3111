(** Reading PSF images and oversampling information: proofs for Start_Model. *)
From Coq Require Import ZArith List Bool Ascii String Lia.
From Verif Require Import Base Num Conv_Model StrUtil_Model StrUtil_Spec StrUtil_Proof CmdLine_Spec Opt_Model Opt_Spec
  Start_Model Start_Spec Start_Text.
Import ListNotations.
Local Open Scope list_scope.
Local Open Scope nat_scope.
Set Implicit Arguments.
Unset Strict Implicit.

Lemma own_single (A : Type) (l : list A) d k : List.length l = 1 -> own_of l k d = nth 0 l d.
  Proof. destruct l as [|x [|]]; try discriminate. reflexivity. Qed.
Lemma own_many (A : Type) (l : list A) d k : List.length l <> 1 -> own_of l k d = nth k l d.
  Proof. destruct l as [|x [|]]; try reflexivity. cbn. congruence. Qed.
Lemma own_at (A : Type) (l : list A) d k : k = 0 \/ 1 < List.length l -> own_of l k d = nth k l d.
  Proof.
    intros H. destruct (Nat.eq_dec (List.length l) 1) as [E|NE]; [|exact (own_many d k NE)].
    rewrite (own_single d k E). destruct H as [-> |H]; [reflexivity|lia].
  Qed.

Section Psf.
  Variable T : Type.
  Variable N : Num T.

  Lemma firstn_next (A : Type) (l : list A) i x : nth_error l i = Some x -> firstn (S i) l = firstn i l ++ [x].
  Proof. revert i. induction l as [|y l IH]; intros [|i] H; try discriminate; cbn in *. - now injection H as ->. - now rewrite IH. Qed.
  Lemma get_nth (A : Type) (l : list A) i d : i < List.length l -> get l i = Ok (nth i l d).
  Proof. intros H. unfold get. rewrite (nth_error_nth' l d H). reflexivity. Qed.

  Lemma kahan_total_total v : exists s, kahan_total N (List.length v) v = Ok s.
  Proof.
    unfold kahan_total.
    match goal with |- context [for_ _ ?f ?s] =>
      destruct (@for_inv _ (fun _ _ => True) f (List.length v) s) as (s' & E & _) end.
    - exact I.
    - intros i [a b] Hi _. destruct (@get_lt _ v i Hi) as (x & Ex). rewrite Ex. cbn [bind]. eauto.
    - rewrite E. cbn [bind]. eauto.
  Qed.
  Lemma normalize_total v : exists v', NormalizePSF N (List.length v) v = Ok v' /\ List.length v' = List.length v.
  Proof.
    unfold NormalizePSF. destruct (kahan_total_total v) as (s & ->). cbn [bind].
    apply (@for_inv _ (fun _ w => List.length w = List.length v)); [reflexivity|].
    intros i w Hi Hw. destruct (@get_lt _ w i ltac:(lia)) as (x & Ex). rewrite Ex. cbn [bind].
    rewrite (@set_lt _ w i (ndiv N x s) ltac:(lia)).
    eexists. split; [reflexivity|]. rewrite upd_length. exact Hw.
  Qed.

  Lemma AddPSFVector_ok c r pix norm : 1 <= c -> 1 <= r -> List.length pix = c * r ->
    exists l, AddPSFVector N (c * r) c r pix norm false =
      Ok (if forallb (nfin N) pix && (negb norm || negb (nleb N (fold_left (nadd N) pix (nofZ N 0)) (nofZ N 0)))
          then (0%Z, Some l, Some (mkPSF pix c r norm)) else ((-1)%Z, None, None)).
  Proof.
    intros Hc Hr HL. unfold AddPSFVector.
    replace (Nat.leb 1 (c * r)) with true by (symmetry; apply Nat.leb_le; nia).
    replace (Nat.leb 1 c) with true by (symmetry; apply Nat.leb_le; lia).
    replace (Nat.leb 1 r) with true by (symmetry; apply Nat.leb_le; lia). cbn [andb].
    match goal with |- context [for_ _ ?f ?s] =>
      destruct (@for_inv _ (fun i (acc : option (list T * T)) =>
        acc = if forallb (nfin N) (firstn i pix)
              then Some (firstn i pix, fold_left (nadd N) (firstn i pix) (nofZ N 0)) else None) f (c * r) s) as (s' & E & P) end.
    - reflexivity.
    - intros i acc Hi ->. destruct (nth_error pix i) as [x|] eqn:Ex; [|apply nth_error_None in Ex; lia].
      rewrite (firstn_next Ex), forallb_app, fold_left_app. cbn [forallb fold_left]. rewrite andb_true_r.
      destruct (forallb (nfin N) (firstn i pix)); cbn [andb]; [|eauto].
      unfold get. rewrite Ex. cbn [bind]. eexists. split; [reflexivity|]. destruct (nfin N x); reflexivity.
    - rewrite E. cbn [bind]. rewrite <- HL, firstn_all in P. subst s'.
      destruct (forallb (nfin N) pix); cbn [andb]; [|exists []; reflexivity].
      destruct norm; cbn [andb negb orb].
      + destruct (nleb N _ _) eqn:El; cbn [negb]; [exists []; reflexivity|].
        rewrite <- HL. destruct (normalize_total pix) as (v & Ev & _). rewrite Ev. cbn [bind]. eauto.
      + cbn [bind]. eauto.
  Qed.

  Definition norm (v : list T) : list T := match NormalizePSF N (List.length v) v with Ok v' => v' | _ => v end.
  Lemma norm_eq v : NormalizePSF N (List.length v) v = Ok (norm v) /\ List.length (norm v) = List.length v.
  Proof. unfold norm. destruct (normalize_total v) as (v' & -> & L). auto. Qed.

  Variable ReadImage : word -> option (nat * nat * list T).
  Hypothesis RD : forall n c r p, ReadImage n = Some (c, r, p) -> 1 <= c /\ 1 <= r /\ List.length p = c * r.
  Variable names regions : list word.
  Variable scs : list Z.
  Variable offset : Z * Z.
  Hypothesis HS : List.length scs = List.length names.
  Hypothesis HN : List.length names = 1 \/ List.length names = List.length regions.

  Notation columns := (Start_Spec.columns ReadImage). Notation rows := (Start_Spec.rows ReadImage). Notation pixels := (Start_Spec.pixels ReadImage).
  Definition name k := own_of names k [].
  Definition psf_of k := mkPSF (pixels (name k)) (columns (name k)) (rows (name k)) true.
  Definition unique k := (k =? 0)%nat || (1 <? List.length names)%nat.
  Definition info_of k : oinfo T := mkOinfo offset (nth k regions []) (psf_of k) (unique k) (own_of scs k 0%Z).
  Definition readable n : bool := match ReadImage n with Some _ => true | None => false end.

  Lemma collect_ok : @collect T ReadImage offset names regions scs (List.length regions) =
    Ok (if forallb readable (map name (seq 0 (List.length regions)))
        then Some (map info_of (seq 0 (List.length regions))) else None).
  Proof.
    unfold collect.
    match goal with |- context [for_ _ ?f ?s] =>
      destruct (@for_inv _ (fun i (acc : option (list (oinfo T) * option (psf_info T * Z))) =>
        acc = if forallb readable (map name (seq 0 i))
              then Some (map info_of (seq 0 i), match i with O => None | S j => Some (psf_of j, own_of scs j 0%Z) end) else None)
        f (List.length regions) s) as (s' & E & P) end.
    - reflexivity.
    - intros i acc Hi ->.
      rewrite seq_S, !map_app, forallb_app. cbn [Nat.add map forallb app]. rewrite andb_true_r.
      destruct (forallb readable (map name (seq 0 i))) eqn:EA; cbn [andb]; [|eauto].
      rewrite (get_nth [] Hi). cbn [bind].
      fold (unique i). destruct (unique i) eqn:U.
      + assert (Hu : i = 0 \/ 1 < List.length names).
        { unfold unique in U. apply orb_true_iff in U. destruct U as [U|U]; [apply Nat.eqb_eq in U|apply Nat.ltb_lt in U]; auto. }
        assert (Hl : i < List.length names) by (destruct HN; destruct Hu; lia).
        rewrite (get_nth [] Hl). cbn [bind]. rewrite <- (own_at [] Hu). fold (name i).
        unfold readable. destruct (ReadImage (name i)) as [[[c r] pix]|] eqn:ER; [|eauto].
        rewrite (get_nth 0%Z (l := scs)) by lia. cbn [bind]. eexists. split; [reflexivity|].
        assert (Ep : psf_of i = mkPSF pix c r true).
        { unfold psf_of, Start_Spec.pixels, Start_Spec.columns, Start_Spec.rows. rewrite ER. reflexivity. }
        unfold info_of. rewrite U, Ep, (own_at 0%Z (l := scs) (k := i)) by (rewrite HS; exact Hu). reflexivity.
      + unfold unique in U. apply orb_false_iff in U. destruct U as [U1 U2]. apply Nat.eqb_neq in U1. apply Nat.ltb_ge in U2.
        destruct i as [|j]; [congruence|].
        assert (H1 : List.length names = 1).
        { destruct HN; lia. }
        assert (En : forall k, name k = name j) by (intros k; unfold name; now rewrite !own_single).
        assert (Es : forall k, own_of scs k 0%Z = own_of scs j 0%Z) by (intros k; rewrite !own_single by lia; reflexivity).
        assert (Ep : forall k, psf_of k = psf_of j) by (intros k; unfold psf_of; now rewrite (En k)).
        cbn [bind]. eexists. split; [reflexivity|].
        unfold info_of at 3. replace (unique (S j)) with false
          by (symmetry; unfold unique; cbn [Nat.eqb orb]; apply Nat.ltb_ge; lia).
        rewrite (En (S j)), (Es (S j)), (Ep (S j)).
        replace (readable (name j)) with true; [reflexivity|].
        symmetry. apply (proj1 (forallb_forall _ _) EA). apply in_map, in_seq. lia.
    - rewrite E. cbn [bind]. subst s'. destruct (forallb readable _); reflexivity.
  Qed.

  (** the content of the array when region k is added *)
  Fixpoint arr k : list T :=
    match k with
    | O => pixels (name 0)
    | S j => if 1 <? List.length names then pixels (name (S j)) else norm (arr j)
    end.
  Lemma arr_own k : k = 0 \/ 1 < List.length names -> arr k = pixels (name k).
  Proof.
    intros H. destruct k as [|j]; [reflexivity|]. cbn [arr].
    replace (1 <? List.length names) with true by (symmetry; apply Nat.ltb_lt; lia). reflexivity.
  Qed.
  Lemma arr_shared k : List.length names = 1 -> arr k = Nat.iter k norm (pixels (name 0)).
  Proof.
    intros H. induction k as [|k IH]; [reflexivity|]. cbn [arr]. rewrite H. cbn [Nat.ltb Nat.leb]. now rewrite IH.
  Qed.
  Lemma arr_length k : readable (name k) = true -> List.length (arr k) = columns (name k) * rows (name k).
  Proof.
    assert (B : forall j, readable (name j) = true -> List.length (pixels (name j)) = columns (name j) * rows (name j)).
    { intros j. unfold readable, Start_Spec.pixels, Start_Spec.columns, Start_Spec.rows.
      destruct (ReadImage (name j)) as [[[c r] p]|] eqn:E; [|discriminate]. intros _. apply (RD E). }
    induction k as [|k IH]; intros H; [exact (B 0 H)|]. cbn [arr].
    destruct (1 <? List.length names) eqn:L; [exact (B _ H)|]. apply Nat.ltb_ge in L.
    rewrite (proj2 (norm_eq _)).
    assert (En : name (S k) = name k).
    { unfold name. clear - L. destruct names as [|x [|y l]]; [cbn; now destruct k|reflexivity|cbn in L; lia]. }
    rewrite En in *. exact (IH H).
  Qed.

  Variable cols rows_ : nat.
  Definition coords k := match GetAllCoordsFromBracket (nth k regions []) with Ok c => c | _ => (0, 0, 0, 0)%Z end.
  Definition call k : region_call T :=
    let '(x1, x2, y1, y2) := coords k in
    mkCall (mkPSF (arr k) (columns (name k)) (rows (name k)) true)
      (x1 - fst offset) (x2 - fst offset) (y1 - snd offset) (y2 - snd offset) (own_of scs k 0%Z).
  Definition placed k := exists x1 x2 y1 y2, GetAllCoordsFromBracket (nth k regions []) = Ok (x1, x2, y1, y2) /\
    (x1 < x2 /\ y1 < y2 /\ 1 <= x2 - fst offset /\ x1 - fst offset <= Z.of_nat cols /\
     1 <= y2 - snd offset /\ y1 - snd offset <= Z.of_nat rows_)%Z.

  Hypothesis HC : 1 <= cols /\ 1 <= rows_.
  Lemma add_ok n : forall s prev,
    (forall k, s <= k < s + n -> placed k /\ readable (name k) = true /\ (1 <= own_of scs k 0)%Z) ->
    (forall j, s = S j -> List.length names = 1 -> prev = norm (arr j)) -> (1 <= List.length names) ->
    AddOversampledPsfs N cols rows_ (map info_of (seq s n)) prev =
      Ok (if forallb (fun k => forallb (nfin N) (arr k)) (seq s n) then Some (map call (seq s n)) else None).
  Proof.
    induction n as [|n IH]; intros s prev H HP HL; [reflexivity|].
    cbn [seq map AddOversampledPsfs forallb].
    destruct (H s ltac:(lia)) as ((x1 & x2 & y1 & y2 & Ec & HX1 & HX2 & HX3 & HX4 & HX5 & HX6) & HR & HS1).
    assert (Ep : (if oi_unique (info_of s) then oi_psf (info_of s)
                  else mkPSF prev (ps_cols (oi_psf (info_of s))) (ps_rows (oi_psf (info_of s))) (ps_normalize (oi_psf (info_of s))))
                 = mkPSF (arr s) (columns (name s)) (rows (name s)) true).
    { unfold info_of, psf_of. cbn [oi_unique oi_psf ps_cols ps_rows ps_normalize]. destruct (unique s) eqn:U.
      - rewrite arr_own; [reflexivity|]. unfold unique in U. apply orb_true_iff in U.
        destruct U as [U|U]; [apply Nat.eqb_eq in U|apply Nat.ltb_lt in U]; auto.
      - unfold unique in U. apply orb_false_iff in U. destruct U as [U1 U2]. apply Nat.eqb_neq in U1.
        destruct s as [|j]; [congruence|]. cbn [arr]. rewrite U2. apply Nat.ltb_ge in U2.
        rewrite (HP j eq_refl ltac:(lia)). reflexivity. }
    cbv zeta. rewrite Ep. clear Ep. cbn [ps_cols ps_rows ps_normalize ps_pixels].
    unfold GetCorrectedRegionCoords. change (oi_region (info_of s)) with (nth s regions []). rewrite Ec. cbn [bind].
    change (oi_offset (info_of s)) with offset. change (oi_scale (info_of s)) with (own_of scs s 0%Z).
    assert (HCR : 1 <= columns (name s) /\ 1 <= rows (name s)).
    { unfold readable, Start_Spec.columns, Start_Spec.rows in *. destruct (ReadImage (name s)) as [[[c r] p]|] eqn:E; [|discriminate].
      destruct (RD E) as (A & B & _). auto. }
    replace (Nat.leb 1 (columns (name s))) with true by (symmetry; apply Nat.leb_le; lia).
    replace (Nat.leb 1 (rows (name s))) with true by (symmetry; apply Nat.leb_le; lia).
    replace (x1 - fst offset <? x2 - fst offset)%Z with true by (symmetry; apply Z.ltb_lt; lia).
    replace (y1 - snd offset <? y2 - snd offset)%Z with true by (symmetry; apply Z.ltb_lt; lia).
    replace (1 <=? own_of scs s 0)%Z with true by (symmetry; apply Z.leb_le; lia).
    cbn [andb].
    destruct (forallb (nfin N) (arr s)); cbn [andb]; [|reflexivity].
    replace (Z.max (x1 - fst offset) 1 <=? Z.min (x2 - fst offset) (Z.of_nat cols))%Z with true by (symmetry; apply Z.leb_le; lia).
    replace (Z.max (y1 - snd offset) 1 <=? Z.min (y2 - snd offset) (Z.of_nat rows_))%Z with true by (symmetry; apply Z.leb_le; lia).
    cbn [andb].
    rewrite <- (arr_length HR), (proj1 (norm_eq (arr s))). cbn [bind].
    rewrite (IH (S s) (norm (arr s))); [|intros k Hk; apply H; lia|now intros j [= ->]|exact HL].
    cbn [bind]. destruct (forallb _ (seq (S s) n)); [|reflexivity].
    cbn [option_map]. do 3 f_equal. unfold call, coords. rewrite Ec. reflexivity.
  Qed.
End Psf.
