(** File names and region texts: proofs for Start_Model. *)
From Coq Require Import ZArith List Bool Ascii String Lia.
From Verif Require Import Base Num StrUtil_Model StrUtil_Spec StrUtil_Proof CmdLine_Spec Opt_Model Opt_Spec Start_Model Start_Spec.
Import ListNotations.
Local Open Scope list_scope.
Set Implicit Arguments.
Unset Strict Implicit.

(** ---- regions ---- *)
Lemma core_chars w x1 x2 y1 y2 n : RegionCore w x1 x2 y1 y2 -> n = 91 \/ n = 93 ->
  Forall (fun c => c <> ascii_of_nat n) w.
Proof.
  intros (a & b & c & d & -> & Ha & Hb & Hc & Hd & _) Hn.
  assert (D : forall s v, Digits s v -> Forall (fun x => x <> ascii_of_nat n) s)
    by (intros s v H; apply (digits_no H); lia).
  apply Forall_app. split; [exact (D _ _ Ha)|]. constructor; [destruct Hn; subst; discriminate|].
  apply Forall_app. split; [exact (D _ _ Hb)|]. constructor; [destruct Hn; subst; discriminate|].
  apply Forall_app. split; [exact (D _ _ Hc)|]. constructor; [destruct Hn; subst; discriminate|exact (D _ _ Hd)].
Qed.
Lemma core_nonempty w x1 x2 y1 y2 : RegionCore w x1 x2 y1 y2 -> w <> [].
Proof. intros (a & b & c & d & -> & _) E. apply app_eq_nil in E. destruct E as [_ E]. discriminate. Qed.

Definition parse_core (copy : str) : res (Z * Z * Z * Z) :=
  do pieces <- SplitString copy [comma];
  do p0 <- get pieces 0;
  do x <- (if str_eqb p0 star then Ok (1, 0)%Z
           else do xs <- SplitString p0 [colon];
                do a <- get xs 0; do x1 <- atoi a;
                do b <- get xs 1; do x2 <- atoi b; Ok (x1, x2));
  do p1 <- get pieces 1;
  if str_eqb p1 star then Ok (fst x, snd x, 1, 0)%Z
  else do ys <- SplitString p1 [colon];
       if (List.length ys =? 2)%nat then
         do a <- get ys 0; do y1 <- atoi a;
         do b <- get ys 1; do y2 <- atoi b; Ok (fst x, snd x, y1, y2)
       else Ok (0, 0, 0, 0)%Z.

Lemma not_star a b : str_eqb (a ++ colon :: b) star = false.
Proof.
  destruct (str_eqb (a ++ colon :: b) star) eqn:E; [|reflexivity]. apply str_eqb_true in E.
  destruct a as [|c a]; [discriminate|]. injection E as _ E. apply app_eq_nil in E. destruct E. discriminate.
Qed.
Lemma parse_core_ok w x1 x2 y1 y2 : RegionCore w x1 x2 y1 y2 -> parse_core w = Ok (x1, x2, y1, y2).
Proof.
  intros (a & b & c & d & -> & Ha & Hb & Hc & Hd & B1 & B2 & B3 & B4).
  assert (D : forall n s v, Digits s v -> (n < 48 \/ 57 < n < 256)%nat -> Forall (fun x => x <> ascii_of_nat n) s)
    by (intros n s v H; apply (digits_no H)).
  assert (NE : forall s v, Digits s v -> s <> []) by (intros s v H; apply (Digits_all H)).
  unfold parse_core.
  replace (a ++ ascii_of_nat 58 :: b ++ ascii_of_nat 44 :: c ++ ascii_of_nat 58 :: d)
    with ((a ++ colon :: b) ++ comma :: (c ++ colon :: d)) by (rewrite <- app_assoc; reflexivity).
  rewrite SplitString_two.
  - cbn [bind get nth_error]. rewrite not_star.
    rewrite (@SplitString_two a colon b); [|exact (NE _ _ Ha)|exact (NE _ _ Hb)|apply (D _ _ _ Ha); lia|apply (D _ _ _ Hb); lia].
    cbn [bind get nth_error]. rewrite (atoi_digits Ha B1). cbn [bind]. rewrite (atoi_digits Hb B2). cbn [bind fst snd].
    rewrite not_star.
    rewrite (@SplitString_two c colon d); [|exact (NE _ _ Hc)|exact (NE _ _ Hd)|apply (D _ _ _ Hc); lia|apply (D _ _ _ Hd); lia].
    cbn [bind get nth_error List.length Nat.eqb]. rewrite (atoi_digits Hc B3). cbn [bind]. rewrite (atoi_digits Hd B4). reflexivity.
  - destruct a; discriminate.
  - destruct c; discriminate.
  - apply Forall_app. split; [apply (D _ _ _ Ha); lia|]. constructor; [discriminate|apply (D _ _ _ Hb); lia].
  - apply Forall_app. split; [apply (D _ _ _ Hc); lia|]. constructor; [discriminate|apply (D _ _ _ Hd); lia].
Qed.

Lemma coords_core pre core post : Forall (fun c => c = lbr) pre -> Forall (fun c => c = rbr) post ->
  core <> [] -> Forall (fun c => c <> lbr) core -> Forall (fun c => c <> rbr) core ->
  GetAllCoordsFromBracket (pre ++ core ++ post) = parse_core core.
Proof.
  intros Hpre Hpost HN HL HR.
  assert (Ea : find_first_not_of (pre ++ core ++ post) [lbr] (Some 0) = Some (List.length pre)).
  { destruct core as [|c core]; [congruence|]. inversion HL; subst.
    change (pre ++ (c :: core) ++ post) with (pre ++ c :: (core ++ post)).
    unfold find_first_not_of. apply (@find_p_app _ pre c (core ++ post) []).
    - eapply Forall_impl; [|exact Hpre]. intros x ->. reflexivity.
    - destruct (is_in [lbr] c) eqn:E; [|reflexivity]. apply is_in_true in E. destruct E as [E|[]]; congruence. }
  assert (Eb : find_last_not_of (pre ++ core ++ post) [rbr] = Some (List.length pre + List.length core - 1)%nat).
  { destruct (exists_last HN) as (l & c & El). rewrite El in HR. apply Forall_app in HR. destruct HR as [_ HR].
    inversion HR; subst.
    unfold find_last_not_of. rewrite <- app_assoc. rewrite app_assoc. cbn [app].
    rewrite (@last_index_of_app _ (pre ++ l) c post).
    - rewrite !app_length. cbn [List.length]. f_equal. lia.
    - destruct (is_in [rbr] c) eqn:E; [|reflexivity]. apply is_in_true in E. destruct E as [E|[]]; congruence.
    - eapply Forall_impl; [|exact Hpost]. intros x ->. reflexivity. }
  assert (Hlen : (1 <= List.length core)%nat) by (destruct core; [congruence|cbn; lia]).
  unfold GetAllCoordsFromBracket. rewrite Ea, Eb.
  replace (List.length pre + List.length core - 1 <? List.length pre)%nat with false
    by (symmetry; apply Nat.ltb_ge; lia).
  unfold substr. replace (List.length (pre ++ core ++ post) <? List.length pre)%nat with false
    by (symmetry; apply Nat.ltb_ge; rewrite app_length; lia).
  rewrite skipn_app_len.
  replace (List.length pre + List.length core - 1 - List.length pre + 1)%nat with (List.length core) by lia.
  rewrite firstn_app_len. reflexivity.
Qed.

Lemma region_coords w x1 x2 y1 y2 : RegionText w x1 x2 y1 y2 -> GetAllCoordsFromBracket w = Ok (x1, x2, y1, y2).
Proof.
  intros [H|(v & -> & H)].
  - change w with ([] ++ w). rewrite <- (app_nil_r w) at 1. rewrite (@coords_core [] w []); try (constructor; fail).
    + exact (parse_core_ok H).
    + exact (core_nonempty H).
    + apply (core_chars H). auto.
    + apply (core_chars H). auto.
  - change (ascii_of_nat 91 :: v ++ [ascii_of_nat 93]) with ([lbr] ++ v ++ [rbr]).
    rewrite coords_core.
    + exact (parse_core_ok H).
    + repeat constructor.
    + repeat constructor.
    + exact (core_nonempty H).
    + apply (core_chars H). auto.
    + apply (core_chars H). auto.
Qed.
Lemma region_coords_unique w x1 x2 y1 y2 x1' x2' y1' y2' : RegionText w x1 x2 y1 y2 -> RegionText w x1' x2' y1' y2' ->
  (x1', x2', y1', y2') = (x1, x2, y1, y2).
Proof. intros H1 H2. apply region_coords in H1, H2. rewrite H1 in H2. injection H2 as -> -> -> ->. reflexivity. Qed.

(** ---- image sections ---- *)
Lemma offset_ext base ext tail : no_char 91 base -> ext <> [] -> no_char 93 ext -> no_char 44 ext -> no_char 91 tail ->
  DetermineImageOffset (base ++ lbr :: ext ++ rbr :: tail) = Ok (0, 0)%Z.
Proof.
  intros Hb Hne Hx Hc Ht. set (name := base ++ lbr :: ext ++ rbr :: tail).
  assert (F1 : find_char name lbr (Some 0) = Some (List.length base)).
  { apply (@find_char_app base lbr (ext ++ rbr :: tail) []). exact Hb. }
  assert (F2 : find_char name rbr (Some (List.length base)) = Some (List.length base + S (List.length ext))).
  { unfold name. change (lbr :: ext ++ rbr :: tail) with ((lbr :: ext) ++ rbr :: tail).
    rewrite find_char_app; [reflexivity|]. constructor; [discriminate|exact Hx]. }
  assert (F3 : find_char name lbr (Some (List.length base + S (List.length ext))) = None).
  { unfold name. replace (base ++ lbr :: ext ++ rbr :: tail) with ((base ++ lbr :: ext) ++ rbr :: tail)
      by (rewrite <- app_assoc; reflexivity).
    replace (List.length base + S (List.length ext)) with (List.length (base ++ lbr :: ext))
      by (rewrite app_length; simpl; lia).
    apply find_char_none. constructor; [discriminate|exact Ht]. }
  assert (F4 : substr name (List.length base + 1) (Some (List.length base + S (List.length ext) - List.length base - 1)) = Ok ext).
  { unfold substr, name.
    replace (base ++ lbr :: ext ++ rbr :: tail) with ((base ++ [lbr]) ++ ext ++ rbr :: tail)
      by (rewrite <- app_assoc; reflexivity).
    replace (List.length base + 1) with (List.length (base ++ [lbr])) by (rewrite app_length; reflexivity).
    destruct (_ <? _)%nat eqn:El; [apply Nat.ltb_lt in El; rewrite app_length in El; lia|].
    rewrite skipn_app_len. f_equal.
    replace (List.length base + S (List.length ext) - List.length base - 1) with (List.length ext) by lia.
    apply firstn_app_len. }
  unfold DetermineImageOffset, GetPixelStartCoords. rewrite F1, F2, F3.
  cbn [find_char find_p]. rewrite F4. cbn [bind]. rewrite (@SplitString_one ext comma Hc). cbn [bind List.length Nat.eqb negb orb].
  destruct ext; [congruence|reflexivity].
Qed.
Lemma section_start n x y : SectionStart n x y -> DetermineImageOffset n = Ok (x - 1, y - 1)%Z.
Proof.
  intros H. destruct H as [base H|base ext tail H1 H2 H3 H4 H5|base sec tail x y H1 H2 H3 H4 H5|base ext mid sec tail x y H1 H2 H3 H4 H5 H6 H7 H8].
  - exact (offset_plain H).
  - exact (offset_ext H1 H2 H3 H4 H5).
  - exact (offset_section H1 H2 H3 H4 H5).
  - exact (offset_ext_section tail H1 H2 H3 H4 H5 H6 H7 H8).
Qed.

(** ---- names ---- *)
Lemma c_str_id s : no_nul s -> c_str s = s.
Proof.
  intros H. unfold c_str. replace (index_of (ch_eqb Ascii.zero) s) with (@None nat); [reflexivity|].
  symmetry. apply index_of_None. apply Forall_forall. intros c Hc. apply ch_eqb_false. intros <-. exact (H Hc).
Qed.
Lemma chop_bracket s : ChopComment s lbr = Ok (before_bracket s).
Proof.
  destruct (span_ex (fun c => negb (ch_eqb c lbr)) s) as [H|(a & c & b & -> & Ha & Hc)].
  - rewrite ChopComment_none.
    + f_equal. induction s as [|c s IH]; [reflexivity|]. apply Forall_cons_iff in H. destruct H as [H1 H2].
      cbn [before_bracket]. destruct (ascii_dec c (ascii_of_nat 91)) as [->|NE]; [discriminate|]. f_equal. apply IH. exact H2.
    + eapply Forall_impl; [|exact H]. intros c Hc ->. discriminate.
  - apply negb_false_iff in Hc. apply ch_eqb_true in Hc. subst c.
    rewrite ChopComment_some.
    + f_equal. induction a as [|c a IH]; [reflexivity|]. apply Forall_cons_iff in Ha. destruct Ha as [H1 H2].
      cbn [before_bracket app]. destruct (ascii_dec c (ascii_of_nat 91)) as [->|NE]; [discriminate|]. f_equal. apply IH. exact H2.
    + eapply Forall_impl; [|exact Ha]. intros c Hc ->. discriminate.
Qed.
Lemma has_prefix_iff p : forall s, has_prefix s p = true <-> exists t, s = p ++ t.
Proof.
  induction p as [|c p IH]; intros s.
  - cbn. split; [eauto|]. intros _. destruct s; reflexivity.
  - destruct s as [|d s]; cbn; [split; [discriminate|intros (t & E); discriminate]|].
    rewrite andb_true_iff, ch_eqb_true, IH. split.
    + intros [-> (t & ->)]. eauto.
    + intros (t & E). injection E as -> ->. eauto.
Qed.
Lemma contains_iff p : forall s, contains s p = true <-> exists a b, s = a ++ p ++ b.
Proof.
  intros s. induction s as [|c s IH]; cbn [contains]; rewrite orb_true_iff, has_prefix_iff.
  - split.
    + intros [(t & E)|E]; [exists [], t; exact E|discriminate].
    + intros (a & b & E). symmetry in E. apply app_eq_nil in E. destruct E as [_ E]. left. exists b. symmetry. exact E.
  - rewrite IH. split.
    + intros [(t & E)|(a & b & ->)]; [exists [], t; exact E|exists (c :: a), b; reflexivity].
    + intros (a & b & E). destruct a as [|d a]; [left; exists b; exact E|].
      injection E as -> ->. right. eauto.
Qed.
Lemma url_iff s : contains s (lit "ftp://") || contains s (lit "http://") = true <-> Url s.
Proof.
  rewrite orb_true_iff, !contains_iff. unfold Url. split.
  - intros [(a & b & E)|(a & b & E)]; exists a, b; [left|right]; exact E.
  - intros (a & b & [E|E]); [left|right]; exists a, b; exact E.
Qed.
Lemma present_ok FE n : no_nul n -> exists b, ImageFileExists FE n = Ok b /\ (b = true <-> Present FE n).
Proof.
  intros H. unfold ImageFileExists. rewrite (c_str_id H).
  destruct (contains n (lit "ftp://") || contains n (lit "http://")) eqn:E.
  - exists true. split; [reflexivity|]. split; [|reflexivity]. intros _. left. apply url_iff. exact E.
  - unfold StripBrackets. rewrite (c_str_id H), chop_bracket. cbn [bind]. exists (FE (before_bracket n)). split; [reflexivity|].
    split; [right; assumption|]. intros [U|U]; [|exact U]. apply url_iff in U. congruence.
Qed.
