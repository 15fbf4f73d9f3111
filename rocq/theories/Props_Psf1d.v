(** C101: PSF profiles in profilefit. *)
From Coq Require Import ZArith List Ascii String Lia Bool Arith Reals Lra.
From Verif Require Import Base StrUtil_Model StrUtil_Spec Props_StrUtil Profile_Model Props_Profile Psf1d_Model.
Import ListNotations.
Local Open Scope list_scope.
Local Open Scope Z_scope.
Set Implicit Arguments.
Unset Strict Implicit.

Lemma read_all T (num : str -> T) ls last wss :
  Forall short_line ls -> short_line last -> Forall2 words (data_lines ls last) wss ->
  (1 <= length (data_lines ls last))%nat ->
  CountDataLines (text ls last) = Z.of_nat (length wss) /\
  ReadDataFile num (text ls last) 0 (Z.of_nat (length wss) - 1) (Z.of_nat (length wss)) false false =
  if forallb (fun ws => Nat.leb 2 (length ws)) wss then Ok (Z.of_nat (length wss), map (row_of num false false) wss) else Abort.
Proof.
  intros F L W P. pose proof (filter_stored (fgets_text F L)) as S.
  pose proof (Forall2_len S) as LS. pose proof (Forall2_len W) as LW. unfold data_lines in *.
  split; [unfold CountDataLines; lia|].
  unfold ReadDataFile. rewrite loop_filter.
  set (ps := filter is_data (fgets_all MAXCHARS [] (text ls last))) in *.
  assert (Dp : Forall (fun p => is_data p = true) ps).
  { apply Forall_forall. intros p I. apply filter_In in I. exact (proj2 I). }
  assert (Wm : Forall2 (fun p ws => is_data p = true /\ words p ws) ps wss).
  { revert W Dp. clear - S. generalize wss. induction S as [|p l ps' ls' X S IH]; intros w W D2.
    - inversion W. constructor.
    - inversion W; subst. inversion D2; subst. constructor; [| apply IH; assumption].
      split; [assumption | eapply words_stored; eassumption]. }
  rewrite <- (app_nil_r ps).
  rewrite (@loop_take T num 0 (Z.of_nat (length wss) - 1) (Z.of_nat (length wss)) false false ps wss Wm [] (-1) (-1) []); try lia.
  change (columns false false) with 2%nat. destruct (forallb _ wss); [| reflexivity].
  cbn [read_loop app]. f_equal. f_equal. lia.
Qed.

(** A PSF file with at most as many rows as the data is read completely. *)
Theorem C101_read_partial : forall (T : Type) (num : str -> T) (ls : list str) (last : str) (nData : Z) (wss : list (list str)),
  Forall short_line ls -> short_line last ->
  let data := data_lines ls last in
  1 <= Z.of_nat (length data) <= 1000000 ->
  Z.of_nat (length data) <= nData ->
  Forall2 words data wss ->
  get_psf num (text ls last) nData =
  if forallb (fun ws => Nat.leb 2 (length ws)) wss then Ok (map (row_of num false false) wss) else Abort.
Proof.
  intros T num ls last nData wss F L data D N W.
  destruct (@read_all T num ls last wss F L W ltac:(fold data; lia)) as [C R].
  pose proof (Forall2_len W) as LW. unfold get_psf. rewrite C, R.
  replace ((Z.of_nat (length wss) <? 1) || (MAX_N_DATA_VALS <? Z.of_nat (length wss)))%bool with false
    by (symmetry; apply orb_false_intro; apply Z.ltb_ge; [| unfold MAX_N_DATA_VALS]; lia).
  destruct (forallb _ wss); [| reflexivity]. cbn [bind fst snd].
  replace (nData <? Z.of_nat (length wss)) with false by (symmetry; apply Z.ltb_ge; lia). reflexivity.
Qed.
Print Assumptions C101_read_partial.

(** One with more rows than the data is refused, always. *)
Theorem C101_longer_refuted : forall (T : Type) (num : str -> T) (ls : list str) (last : str) (nData : Z),
  Forall short_line ls -> short_line last -> nData < Z.of_nat (length (data_lines ls last)) ->
  get_psf num (text ls last) nData = Abort.
Proof.
  intros T num ls last nData F L N.
  assert (Wm : exists wss, Forall2 words (data_lines ls last) wss).
  { generalize (data_lines ls last). intros l. induction l as [|p l [wss IH]]; [exists []; constructor|].
    destruct (C100_words p) as (ws & W & _). exists (ws :: wss). constructor; assumption. }
  destruct Wm as [wss W]. pose proof (Forall2_len W) as LW.
  destruct (le_lt_dec 1 (length (data_lines ls last))) as [P | P].
  - destruct (@read_all T num ls last wss F L W P) as [C R]. unfold get_psf. rewrite C.
    destruct (_ || _)%bool; [reflexivity|]. rewrite R.
    destruct (forallb _ wss); [| reflexivity]. cbn [bind fst snd].
    replace (nData <? Z.of_nat (length wss)) with true by (symmetry; apply Z.ltb_lt; lia). reflexivity.
  - unfold get_psf, CountDataLines. pose proof (filter_stored (fgets_text F L)) as S.
    pose proof (Forall2_len S) as LS. unfold data_lines in P. rewrite LS.
    replace (Z.of_nat (length (filter (fun l => negb (is_comment l)) (lines_of ls last))) <? 1) with true
      by (symmetry; apply Z.ltb_lt; lia). reflexivity.
Qed.
Print Assumptions C101_longer_refuted.

(** Data with equal steps: the model is computed on the same grid, continued by the length of the PSF on both sides. *)
Theorem C101_grid : forall (x0 d : R) (n k : nat), (2 <= n)%nat ->
  modelXValues (map (fun i => x0 + d * INR i)%R (seq 0 n)) k =
  Ok (map (fun i => x0 + d * (INR i - INR k))%R (seq 0 (n + 2 * k))).
Proof.
  intros x0 d n k N. unfold modelXValues, get. rewrite map_length, seq_length.
  assert (G : forall i, (i < n)%nat -> nth_error (map (fun i => x0 + d * INR i)%R (seq 0 n)) i = Some (x0 + d * INR i)%R).
  { intros i I. rewrite nth_error_map, (nth_error_nth' _ 0%nat); [| rewrite seq_length; exact I].
    rewrite seq_nth; [reflexivity | exact I]. }
  rewrite !G by lia. cbn [bind]. f_equal.
  replace (n + 2 * k)%nat with (k + (n + k))%nat by lia. rewrite !seq_app, !map_app. cbn [Nat.add].
  assert (Sh : forall a m (f : nat -> R), map f (seq a m) = map (fun i => f (a + i)%nat) (seq 0 m)).
  { clear. intros a m f. revert a f. induction m as [|m IH]; intros a f; [reflexivity|].
    cbn [seq map]. rewrite Nat.add_0_r. f_equal. rewrite IH. rewrite (IH 1%nat (fun i => f (a + i)%nat)).
    apply map_ext. intros i. f_equal. lia. }
  f_equal; [| f_equal].
  - apply map_ext. intros i. cbn [INR]. lra.
  - rewrite (Sh k n). apply map_ext. intros i. rewrite plus_INR. lra.
  - rewrite (Sh (k + n)%nat k). apply map_ext. intros i. rewrite !plus_INR, minus_INR by lia. cbn [INR]. lra.
Qed.
Print Assumptions C101_grid.

(** ** Cases *)
Example C101_case :
  let psf := [lit "# PSF"; lit "-1 0.2"; lit "0 0.6"; lit "1 0.2"] in
  data_lines psf [] = [lit "-1 0.2"; lit "0 0.6"; lit "1 0.2"] /\
  get_psf (fun w => w) (text psf []) 3 =
    Ok [(lit "-1", lit "0.2", None, None); (lit "0", lit "0.6", None, None); (lit "1", lit "0.2", None, None)] /\
  get_psf (fun w => w) (text psf []) 2 = Abort.
Proof. vm_compute. repeat split. Qed.
