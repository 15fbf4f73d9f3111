(** Several images fitted together: the statistic and the deviates decompose. *)
From Coq Require Import ZArith List Bool Lia.
From Verif Require Import Base Num Fit_Model Fit_Spec Fit_Proof.
Import ListNotations.
Set Implicit Arguments. Unset Strict Implicit.

Lemma skipn_add {A} a : forall b (l : list A), skipn a (skipn b l) = skipn (b + a) l.
Proof. intros b. induction b as [|b IH]; intros [|x l]; cbn [skipn Nat.add]; auto. now rewrite skipn_nil. Qed.

Section G.
Variables (T : Type) (N : Num T).
Hypothesis H01 : nltb N (nofZ N 0) (nofZ N 1) = true.
Hypothesis H00 : nltb N (nofZ N 0) (nofZ N 0) = false.

Lemma multi_stat cash (l : list (mobj T * list T * T)) :
  Forall (fun t => useCash (fst (fst t)) = cash /\ exists o', GetFitStatistic N (fst (fst t)) (snd (fst t)) = Ok (o', snd t)) l ->
  MultiFitStatistic N cash (map (fun t => fst (fst t)) l) (map (fun t => snd (fst t)) l)
    = Ok (fold_left (nadd N) (map snd l) (nofZ N 0)).
Proof.
  intros F. unfold MultiFitStatistic. rewrite map_length.
  match goal with |- for_ ?n ?f ?a = _ => destruct (@for_inv _ (fun k v => v = fold_left (nadd N) (map snd (firstn k l)) (nofZ N 0)) f n a) as (v & E & Pv) end.
  - reflexivity.
  - intros i v Hi ->. destruct (nth_error l i) as [((o, mv), f)|] eqn:El; [|apply nth_error_None in El; lia].
    rewrite Forall_forall in F. destruct (F _ (nth_error_In _ _ El)) as (C & o' & G). cbn [fst snd] in C, G.
    unfold get. rewrite !nth_error_map, El. cbn [option_map bind fst snd].
    assert (FS : fold_left (nadd N) (map snd (firstn (S i) l)) (nofZ N 0) = nadd N (fold_left (nadd N) (map snd (firstn i l)) (nofZ N 0)) f).
    { rewrite (@firstn_snoc _ (o, mv, f) l i) by lia. rewrite map_app, fold_left_app. cbn [map fold_left].
      rewrite (nth_error_nth l i _ El). reflexivity. }
    unfold GetFitStatistic in G. rewrite C in G. destruct cash.
    + destruct (CashStatistic N o mv) as [c| | |]; cbn [bind] in *; try discriminate. injection G as _ <-.
      eexists. split; [reflexivity|]. now rewrite FS.
    + rewrite G. cbn [bind snd]. eexists. split; [reflexivity|]. now rewrite FS.
  - rewrite E, Pv, firstn_all. reflexivity.
Qed.

Definition total_size (l : list (setup T * mobj T * list T * list T)) : nat :=
  fold_right (fun t a => npix (fst (fst (fst t))) + a) 0 l.

Definition image_ok (t : setup T * mobj T * list T * list T) : Prop :=
  let '(s, o, mv, d) := t in
  well_formed N s /\ length mv = model_size s /\ (exists st, prepare N s = Ok (st, o)) /\
  exists y o', length y = npix s /\ ComputeDeviates N o mv y 0 = Ok (o', d).

Lemma total_firstn l : forall i t, nth_error l i = Some t -> total_size (firstn (S i) l) = total_size (firstn i l) + npix (fst (fst (fst t))).
Proof.
  induction l as [|a l IH]; intros [|i] t E; try discriminate.
  - injection E as ->. unfold total_size. cbn [firstn fold_right]. lia.
  - change (firstn (S (S i)) (a :: l)) with (a :: firstn (S i) l). change (firstn (S i) (a :: l)) with (a :: firstn i l).
    change (total_size (a :: firstn (S i) l)) with (npix (fst (fst (fst a))) + total_size (firstn (S i) l)).
    change (total_size (a :: firstn i l)) with (npix (fst (fst (fst a))) + total_size (firstn i l)). rewrite (IH i t E). lia.
Qed.
Lemma total_firstn_le l i : total_size (firstn i l) <= total_size l.
Proof.
  revert i. induction l as [|a l IH]; intros [|i]; cbn [firstn]; try lia; unfold total_size in *; cbn [fold_right] in *; [lia|].
  pose proof (IH i). lia.
Qed.

Lemma multi_dev (l : list (setup T * mobj T * list T * list T)) y :
  Forall image_ok l -> length y = total_size l ->
  MultiDeviates N (map (fun t => snd (fst (fst t))) l) (map (fun t => snd (fst t)) l) y = Ok (concat (map snd l)).
Proof.
  intros F Ly. unfold MultiDeviates. rewrite map_length.
  match goal with |- context [for_ ?n ?f ?a] => destruct (@for_inv _ (fun k v => snd v = total_size (firstn k l) /\
     fst v = concat (map snd (firstn k l)) ++ skipn (total_size (firstn k l)) y /\
     length (concat (map snd (firstn k l))) = total_size (firstn k l)) f n a) as ((v1, v2) & E & Pv) end.
  - split; [reflexivity|]. split; reflexivity.
  - intros i (v1, v2) Hi (V2 & V1 & V3). cbn [fst snd] in V1, V2.
    destruct (nth_error l i) as [(((s, o), mv), d)|] eqn:El; [|apply nth_error_None in El; lia].
    rewrite Forall_forall in F. destruct (F _ (nth_error_In _ _ El)) as (W & Lm & (st & Ep) & y0 & o0 & Ly0 & D).
    unfold get. rewrite !nth_error_map, El. cbn [option_map bind fst snd].
    pose proof (total_firstn El) as TS. cbn [fst] in TS. pose proof (total_firstn_le l (S i)) as TL.
    destruct (prepare_ok H01 H00 W) as (st' & o'' & Ep' & P). rewrite Ep in Ep'. injection Ep' as <- <-.
    destruct (@deviates_ok _ N H01 H00 s st o mv None y0 0 P Lm I) as (o1 & D1).
    { cbn [pixels]. rewrite seq_length. lia. }
    cbn [resampled pixels firstn app Nat.add] in D1. rewrite D in D1. injection D1 as _ D1.
    rewrite seq_length in D1. rewrite (skipn_all2 (n := npix s) y0), app_nil_r in D1 by lia.
    destruct (@deviates_ok _ N H01 H00 s st o mv None v1 v2 P Lm I) as (o2 & D2).
    { cbn [pixels]. rewrite seq_length, V1, app_length, skipn_length, V3. lia. }
    cbn [resampled pixels] in D2. rewrite D2. cbn [bind snd]. eexists. split; [reflexivity|]. cbn [fst snd].
    assert (Ld : length d = npix s) by (rewrite D1, map_length, seq_length; reflexivity).
    assert (CC : concat (map snd (firstn (S i) l)) = concat (map snd (firstn i l)) ++ d).
    { rewrite (@firstn_snoc _ (s, o, mv, d) l i) by lia. rewrite map_app, concat_app. cbn [map concat].
      rewrite (nth_error_nth l i _ El). now rewrite app_nil_r. }
    rewrite CC, TS. split; [|split].
    + rewrite (p_n P). lia.
    + rewrite <- app_assoc. rewrite <- D1, seq_length. rewrite V1, V2.
      rewrite firstn_app, V3, Nat.sub_diag. cbn [firstn]. rewrite app_nil_r.
      rewrite (firstn_all2 (n := total_size (firstn i l))) by lia. f_equal. f_equal.
      rewrite skipn_app, V3. rewrite skipn_all2 by (rewrite V3; lia). cbn [app].
      rewrite skipn_add. f_equal. lia.
    + rewrite app_length, V3, Ld. reflexivity.
  - rewrite E. cbn [bind fst]. destruct Pv as (_ & V1 & V3). cbn [fst] in V1. rewrite firstn_all in *.
    rewrite V1, <- Ly, skipn_all, app_nil_r. reflexivity.
Qed.
End G.
