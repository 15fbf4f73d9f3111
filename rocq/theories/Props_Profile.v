(** C100: which numbers profilefit takes from a file of data. *)
From Coq Require Import ZArith List Ascii String Lia Bool Arith.
From Verif Require Import Base StrUtil_Model StrUtil_Spec Props_StrUtil Profile_Model.
Import ListNotations.
Local Open Scope list_scope.
Local Open Scope Z_scope.
Set Implicit Arguments.
Unset Strict Implicit.

(** ** Specification *)

(** A file: lines, each ended by a newline, and possibly a last one without. *)
Definition text (ls : list str) (last : str) : str := concat (map (fun l => l ++ [ascii_of_nat 10]) ls) ++ last.
Definition lines_of (ls : list str) (last : str) : list str := ls ++ match last with [] => [] | _ => [last] end.
Definition is_comment (l : str) : bool := match l with c :: _ => Ascii.eqb c "#"%char | [] => false end.
Definition data_lines (ls : list str) (last : str) : list str := filter (fun l => negb (is_comment l)) (lines_of ls last).
(** rows number a to b, counting from 0 *)
Definition rows_between (a b : Z) (l : list str) : list str := firstn (Z.to_nat (b - a + 1)) (skipn (Z.to_nat a) l).

Definition no_newline (l : str) : Prop := ~ In (ascii_of_nat 10) l.
Definition short_line (l : str) : Prop := no_newline l /\ (length l <= 1021)%nat.
(** words of a line, separated by blanks *)
Definition words (l : str) (ws : list str) : Prop := Tokens (fun c => In c [ascii_of_nat 10; ascii_of_nat 9; ascii_of_nat 32]) l ws.

(** the columns that are needed, and what they are taken for *)
Definition columns (errors mask : bool) : nat := if mask then 4 else if errors then 3 else 2.
Definition row_of T (num : str -> T) (errors mask : bool) (ws : list str) : T * T * option T * option T :=
  (num (nth 0 ws []), num (nth 1 ws []), (if errors then Some (num (nth 2 ws [])) else None),
   (if mask then Some (num (nth 3 ws [])) else None)).

(** ** Proofs *)

Lemma fgets_line l : forall room cur r, no_newline l -> (length l < room)%nat ->
  fgets_all room cur (l ++ newline :: r) = (cur ++ l ++ [newline]) :: fgets_all MAXCHARS [] r.
Proof.
  induction l as [|c l IH]; intros room cur r N L.
  - reflexivity.
  - cbn [app fgets_all]. cbn [length] in L.
    assert (C : Ascii.eqb c newline = false).
    { apply Ascii.eqb_neq. intros ->. apply N. left. reflexivity. }
    assert (B : Nat.leb room 1 = false) by (apply Nat.leb_gt; lia).
    rewrite C, B. cbn [orb]. rewrite IH; [| intros I; apply N; right; exact I | lia].
    rewrite <- app_assoc. reflexivity.
Qed.

Lemma fgets_last l : forall room cur, no_newline l -> (length l < room)%nat ->
  fgets_all room cur l = match cur ++ l with [] => [] | x => [x] end.
Proof.
  induction l as [|c l IH]; intros room cur N L.
  - rewrite app_nil_r. destruct cur; reflexivity.
  - cbn [fgets_all]. cbn [length] in L.
    assert (C : Ascii.eqb c newline = false).
    { apply Ascii.eqb_neq. intros ->. apply N. left. reflexivity. }
    assert (B : Nat.leb room 1 = false) by (apply Nat.leb_gt; lia).
    rewrite C, B. cbn [orb]. rewrite IH; [| intros I; apply N; right; exact I | lia].
    rewrite <- app_assoc. reflexivity.
Qed.

(** the line that was stored, with or without its newline *)
Definition stored (p l : str) : Prop := p = l ++ [newline] \/ (p = l /\ l <> []).

Lemma fgets_text ls last : Forall short_line ls -> short_line last ->
  Forall2 stored (fgets_all MAXCHARS [] (text ls last)) (lines_of ls last).
Proof.
  intros F [N L]. unfold text, lines_of. induction F as [|l ls [Nl Ll] F IH].
  - cbn [map concat app]. rewrite fgets_last; [| exact N | unfold MAXCHARS; lia]. cbn [app].
    destruct last; [constructor | constructor; [| constructor]]. right. split; [reflexivity | discriminate].
  - cbn [map concat]. rewrite <- !app_assoc. cbn [app].
    change (ascii_of_nat 10) with newline at 1.
    rewrite fgets_line; [| exact Nl | unfold MAXCHARS; lia]. cbn [app].
    constructor; [left; reflexivity | exact IH].
Qed.

Lemma is_data_stored p l : stored p l -> is_data p = negb (is_comment l).
Proof. intros [-> | [-> N]]; destruct l; reflexivity. Qed.

Lemma filter_stored ps ls : Forall2 stored ps ls ->
  Forall2 stored (filter is_data ps) (filter (fun l => negb (is_comment l)) ls).
Proof.
  induction 1 as [|p l ps ls S F IH]; [constructor|]. cbn [filter]. rewrite (is_data_stored S).
  destruct (negb (is_comment l)); [constructor; assumption | exact IH].
Qed.

Lemma only_in (P : ascii -> Prop) s : only P s -> forall c, In c s -> P c.
Proof. intros H. exact (proj1 (Forall_forall P s) H). Qed.
Lemma only_intro (P : ascii -> Prop) s : (forall c, In c s -> P c) -> only P s.
Proof. intros H. exact (proj2 (Forall_forall P s) H). Qed.

Lemma words_newline l ws : words l ws -> words (l ++ [newline]) ws.
Proof.
  unfold words. induction 1 as [g G | g t G T0 T1 | g t c r ts G T0 T1 D K IH].
  - apply Tok_none. apply only_intro. intros c I. apply in_app_or in I.
    destruct I as [I | [<- | []]]; [exact (only_in G I) | left; reflexivity].
  - rewrite <- app_assoc. apply Tok_more; try assumption; [left; reflexivity|].
    apply Tok_none. apply only_intro. intros c [<- | []]. left; reflexivity.
  - rewrite <- !app_assoc. apply Tok_more; assumption.
Qed.

Lemma words_stored p l ws : stored p l -> words l ws -> words p ws.
Proof. intros [-> | [-> _]]; [apply words_newline | exact (fun x => x)]. Qed.

Lemma split_words p ws : words p ws ->
  exists ws', SplitString p ws_delims = Ok ws' /\ ((2 <= length ws)%nat -> ws' = ws) /\ ((length ws < 2)%nat -> (length ws' < 2)%nat).
Proof.
  intros W. unfold words in W. inversion W as [g G | g t G T0 T1 | g t c r ts G T0 T1 D K]; subst.
  - exists [p]. split.
    + apply C01_split_single. intros (g' & t & c & r & -> & _ & T0 & T1 & _).
      destruct t as [|a t]; [apply T0; reflexivity|].
      apply (only_in T1 (c := a)); [left; reflexivity|]. apply (only_in G). apply in_or_app. right. left. reflexivity.
    + cbn [length]. split; lia.
  - assert (NH : ~ HasLaterDelim (fun c => In c ws_delims) (g ++ t)).
    { intros H. destruct H as (g' & t' & c & r & E & G' & T0' & T1' & D').
      assert (Ic : forall (x y u v : str), x ++ y = u ++ v -> only (fun c => In c ws_delims) x -> only (fun c => ~ In c ws_delims) y ->
                 only (fun c => In c ws_delims) u -> (v = [] \/ exists a w, v = a :: w /\ ~ In a ws_delims) -> (y = [] -> v = []) -> y = v).
      { clear. intros x. induction x as [|a x IH]; intros y u v E X Y U V Z.
        - destruct u as [|b u]; [exact E|]. cbn in E. exfalso. apply (only_in Y (c := b)); [rewrite E; left; reflexivity | apply (only_in U); left; reflexivity].
        - destruct u as [|b u].
          + cbn in E. destruct V as [-> | (w1 & w & -> & NV)]; [discriminate|]. injection E as E1 E2. subst w1.
            exfalso. apply NV. apply (only_in X). left. reflexivity.
          + cbn in E. injection E as E1 E2. apply (IH y u v E2); try assumption; apply only_intro; intros q I; [apply (only_in X) | apply (only_in U)]; right; exact I. }
      assert (Et : t = t' ++ c :: r).
      { apply (Ic g t g' (t' ++ c :: r) E G T1 G').
        - right. destruct t' as [|a t']; [contradiction T0'; reflexivity|]. exists a, (t' ++ c :: r). split; [reflexivity|].
          apply (only_in T1' (c := a)). left. reflexivity.
        - intros ->. contradiction T0; reflexivity. }
      apply (only_in T1 (c := c)); [rewrite Et; apply in_or_app; right; left; reflexivity | exact D']. }
    exists [g ++ t]. split; [exact (C01_split_single _ _ NH)|]. cbn [length]. split; lia.
  - destruct (C01_split_tokens (g ++ t ++ c :: r) ws_delims) as (toks & E & K').
    { exists g, t, c, r. repeat split; assumption. }
    exists toks. assert (X : toks = t :: ts) by (eapply C01_tokens_unique; eassumption). subst toks.
    split; [exact E|]. split; [reflexivity | exact (fun x => x)].
Qed.

Section Loop.
Variable T : Type.
Variable num : str -> T.
Variables (s e size : Z) (E M : bool).
Local Notation loop := (read_loop num s e size E M).

Lemma loop_filter ps : forall i j rows, loop ps i j rows = loop (filter is_data ps) i j rows.
Proof.
  induction ps as [|p ps IH]; intros i j rows; [reflexivity|]. cbn [filter read_loop].
  destruct (is_data p) eqn:D; [| apply IH]. cbn [read_loop]. rewrite D.
  destruct ((s <=? i + 1) && (i + 1 <=? e))%bool; try apply IH;
  (destruct (SplitString p ws_delims) as [x| | |]; cbn [bind]; try reflexivity;
   destruct (Nat.leb (length x) 1); try reflexivity;
   destruct (E && Nat.ltb (length x) 3)%bool; try reflexivity;
   destruct (M && Nat.ltb (length x) 4)%bool; try reflexivity;
   destruct (get x 0); cbn [bind]; try reflexivity;
   destruct (get x 1); cbn [bind]; try reflexivity;
   match goal with |- context [bind (if E then ?a else ?b) _] => destruct (if E then a else b) end; cbn [bind]; try reflexivity;
   match goal with |- context [bind (if M then ?a else ?b) _] => destruct (if M then a else b) end; cbn [bind]; try reflexivity;
   destruct (j + 1 <? size); [apply IH | reflexivity]).
Qed.

Lemma loop_skip ps : forall ps2 i j rows, Forall (fun p => is_data p = true) ps -> i + Z.of_nat (length ps) < s ->
  loop (ps ++ ps2) i j rows = loop ps2 (i + Z.of_nat (length ps)) j rows.
Proof.
  induction ps as [|p ps IH]; intros ps2 i j rows F L.
  - cbn [app length]. f_equal. lia.
  - inversion F; subst. cbn [app read_loop]. rewrite H1. cbn [length] in L.
    replace (s <=? i + 1) with false by (symmetry; apply Z.leb_gt; lia). cbn [andb].
    rewrite IH; [| assumption | lia]. f_equal. cbn [length]. lia.
Qed.

Lemma loop_after ps : forall i j rows, e <= i -> loop ps i j rows = Ok (j + 1, rows).
Proof.
  induction ps as [|p ps IH]; intros i j rows L; [reflexivity|]. cbn [read_loop].
  replace (i + 1 <=? e) with false by (symmetry; apply Z.leb_gt; lia). rewrite andb_false_r.
  destruct (is_data p); apply IH; lia.
Qed.

Lemma columns_2 : (2 <= columns E M)%nat.
Proof. unfold columns. destruct M, E; lia. Qed.

Lemma loop_step p ps ws i j rows : is_data p = true -> words p ws -> s <= i + 1 <= e -> j + 1 < size ->
  loop (p :: ps) i j rows =
  if Nat.leb (columns E M) (length ws) then loop ps (i + 1) (j + 1) (rows ++ [row_of num E M ws]) else Abort.
Proof.
  intros D W I J. cbn [read_loop]. rewrite D.
  replace (s <=? i + 1) with true by (symmetry; apply Z.leb_le; lia).
  replace (i + 1 <=? e) with true by (symmetry; apply Z.leb_le; lia). cbn [andb].
  destruct (split_words W) as (ws' & -> & A & B). cbn [bind].
  replace (j + 1 <? size) with true by (symmetry; apply Z.ltb_lt; lia).
  destruct (le_lt_dec 2 (length ws)) as [L | L].
  - rewrite (A L). unfold row_of, columns.
    destruct ws as [|w0 [|w1 [|w2 [|w3 ws]]]]; cbn [length] in L; try lia;
      destruct E, M; reflexivity.
  - specialize (B L). replace (Nat.leb (columns E M) (length ws)) with false
      by (symmetry; apply Nat.leb_gt; pose proof columns_2; lia).
    destruct ws' as [|w0 [|w1 ws']]; cbn [length] in B; try lia; reflexivity.
Qed.

Lemma loop_take ps wss : Forall2 (fun p ws => is_data p = true /\ words p ws) ps wss -> forall ps2 i j rows,
  s <= i + 1 -> i + Z.of_nat (length ps) <= e -> j + Z.of_nat (length ps) < size ->
  loop (ps ++ ps2) i j rows =
  if forallb (fun ws => Nat.leb (columns E M) (length ws)) wss
  then loop ps2 (i + Z.of_nat (length ps)) (j + Z.of_nat (length ps)) (rows ++ map (row_of num E M) wss) else Abort.
Proof.
  induction 1 as [|p ws ps wss [D W] F IH]; intros ps2 i j rows S I J.
  - cbn [app length forallb map]. rewrite app_nil_r. f_equal; lia.
  - cbn [app]. cbn [length] in I, J. rewrite (loop_step _ _ D W); [| lia | lia].
    cbn [forallb]. destruct (Nat.leb (columns E M) (length ws)); [| reflexivity]. cbn [andb].
    rewrite IH; [| lia | lia | lia]. destruct (forallb _ wss); [| reflexivity].
    cbn [map length]. rewrite <- app_assoc. cbn [app]. f_equal; lia.
Qed.
End Loop.

Lemma firstn_skipn3 A (l : list A) a n : l = firstn a l ++ firstn n (skipn a l) ++ skipn n (skipn a l).
Proof. rewrite firstn_skipn. symmetry. apply firstn_skipn. Qed.

Lemma Forall2_len A B (R : A -> B -> Prop) l m : Forall2 R l m -> length l = length m.
Proof. induction 1; cbn; congruence. Qed.
Lemma Forall2_firstn A B (R : A -> B -> Prop) n : forall l m, Forall2 R l m -> Forall2 R (firstn n l) (firstn n m).
Proof. induction n; intros l m F; [constructor|]. destruct F; cbn; constructor; auto. Qed.
Lemma Forall2_skipn A B (R : A -> B -> Prop) n : forall l m, Forall2 R l m -> Forall2 R (skipn n l) (skipn n m).
Proof. induction n; intros l m F; [exact F|]. destruct F; cbn; [constructor | auto]. Qed.

(** ** C100 *)

(** The rows that are asked for are taken from the file in order, comments do not count, and of each row the columns that
    are needed; a row with too few columns stops the program. *)
Theorem C100_rows : forall (T : Type) (num : str -> T) (ls : list str) (last : str) (first lastRow endRow : Z) (errors mask : bool)
    (wss : list (list str)),
  Forall short_line ls -> short_line last ->
  let data := data_lines ls last in
  Z.of_nat (length data) <= 1000000 ->
  endRow = lastRow \/ (endRow = -1 /\ lastRow = Z.of_nat (length data) - 1) ->
  0 <= first < lastRow -> lastRow < Z.of_nat (length data) ->
  Forall2 words (rows_between first lastRow data) wss ->
  get_data num (text ls last) first endRow errors mask =
  if forallb (fun ws => Nat.leb (columns errors mask) (length ws)) wss
  then Ok (lastRow - first + 1, map (row_of num errors mask) wss) else Abort.
Proof.
  intros T num ls last first lastRow endRow errors mask wss F L data Max R A B W.
  pose proof (filter_stored (fgets_text F L)) as S. fold data in S. unfold data_lines in data. fold data in S.
  assert (N : CountDataLines (text ls last) = Z.of_nat (length data)).
  { unfold CountDataLines. rewrite (Forall2_len S). reflexivity. }
  unfold get_data. rewrite N.
  replace (if endRow =? -1 then Z.of_nat (length data) - 1 else endRow) with lastRow
    by (destruct (Z.eqb_spec endRow (-1)); lia).
  replace ((Z.of_nat (length data) <? 1) || (MAX_N_DATA_VALS <? Z.of_nat (length data)))%bool with false
    by (symmetry; apply orb_false_intro; [apply Z.ltb_ge; lia | apply Z.ltb_ge; unfold MAX_N_DATA_VALS; lia]).
  replace ((first <? 0) || (Z.of_nat (length data) <=? first))%bool with false
    by (symmetry; apply orb_false_intro; [apply Z.ltb_ge; lia | apply Z.leb_gt; lia]).
  replace ((lastRow <=? first) || (Z.of_nat (length data) <=? lastRow))%bool with false
    by (symmetry; apply orb_false_intro; apply Z.leb_gt; lia).
  unfold ReadDataFile. rewrite loop_filter.
  set (ps := filter is_data (fgets_all MAXCHARS [] (text ls last))) in *.
  set (a := Z.to_nat first). set (n := Z.to_nat (lastRow - first + 1)).
  assert (Dp : Forall (fun p => is_data p = true) ps).
  { apply Forall_forall. intros p I. apply filter_In in I. exact (proj2 I). }
  pose proof (Forall2_len S) as LS.
  rewrite (firstn_skipn3 ps a n).
  rewrite loop_skip; cycle 1.
  { rewrite <- (firstn_skipn a ps) in Dp. apply Forall_app in Dp. exact (proj1 Dp). }
  { rewrite firstn_length. lia. }
  assert (Lm : length (firstn n (skipn a ps)) = n) by (rewrite firstn_length, skipn_length; lia).
  rewrite (@loop_take T num first lastRow (lastRow - first + 1) errors mask _ wss); cycle 1.
  { pose proof (Forall2_firstn n (Forall2_skipn a S)) as S2.
    unfold rows_between in W. fold a n in W.
    assert (D2 : Forall (fun p => is_data p = true) (firstn n (skipn a ps))).
    { rewrite (firstn_skipn3 ps a n) in Dp. apply Forall_app in Dp. destruct Dp as [_ Dp].
      apply Forall_app in Dp. exact (proj1 Dp). }
    clear - S2 W D2. revert W D2. generalize wss. induction S2 as [|p l ps' ls' X S2 IH]; intros w W D2.
    - inversion W. constructor.
    - inversion W; subst. inversion D2; subst. constructor; [| apply IH; assumption].
      split; [assumption | eapply words_stored; eassumption]. }
  { rewrite firstn_length. lia. }
  { rewrite Lm, firstn_length. lia. }
  { rewrite Lm. lia. }
  destruct (forallb _ wss); [| reflexivity].
  rewrite loop_after; [| rewrite Lm, firstn_length; lia].
  rewrite Lm. cbn [app]. f_equal. f_equal. lia.
Qed.
Print Assumptions C100_rows.

(** every line has words, and only one list of them *)
Theorem C100_words : forall l, exists! ws, words l ws.
Proof.
  intros l. destruct (C01_split_add_tokens l [] ws_delims) as (ws & _ & W). exists ws. split; [exact W|].
  intros ws' W'. eapply C01_tokens_unique; eassumption.
Qed.
Print Assumptions C100_words.

(** Whatever the file contains, nothing is written outside the arrays, and they are filled completely. *)
Theorem C100_safe : forall (T : Type) (num : str -> T) (file : str) (first endRow : Z) (errors mask : bool),
  get_data num file first endRow errors mask = Abort \/
  exists n rows, get_data num file first endRow errors mask = Ok (n, rows) /\ n = Z.of_nat (length rows) /\
    (endRow <> -1 -> n = endRow - first + 1).
Proof.
  intros T num file first endRow errors mask. unfold get_data.
  destruct ((CountDataLines file <? 1) || _)%bool; [left; reflexivity|].
  destruct ((first <? 0) || (CountDataLines file <=? first))%bool eqn:C1; [left; reflexivity|].
  apply orb_false_elim in C1. destruct C1 as [C1 C2]. apply Z.ltb_ge in C1. apply Z.leb_gt in C2.
  set (e := if endRow =? -1 then CountDataLines file - 1 else endRow).
  destruct ((e <=? first) || (CountDataLines file <=? e))%bool eqn:C3; [left; reflexivity|].
  apply orb_false_elim in C3. destruct C3 as [C3 C4]. apply Z.leb_gt in C3. apply Z.leb_gt in C4.
  unfold ReadDataFile. rewrite loop_filter. unfold CountDataLines in C2, C4.
  set (ps := filter is_data (fgets_all MAXCHARS [] file)) in *.
  assert (Dp : Forall (fun p => is_data p = true) ps).
  { apply Forall_forall. intros p I. apply filter_In in I. exact (proj2 I). }
  set (a := Z.to_nat first). set (n := Z.to_nat (e - first + 1)).
  assert (Wm : exists wss, Forall2 (fun p ws => is_data p = true /\ words p ws) (firstn n (skipn a ps)) wss).
  { assert (D2 : Forall (fun p => is_data p = true) (firstn n (skipn a ps))).
    { rewrite (firstn_skipn3 ps a n) in Dp. apply Forall_app in Dp. destruct Dp as [_ Dp].
      apply Forall_app in Dp. exact (proj1 Dp). }
    clear - D2. induction D2 as [|p l D D2 [wss IH]]; [exists []; constructor|].
    destruct (C100_words p) as (ws & W & _). exists (ws :: wss). constructor; [split; assumption | exact IH]. }
  destruct Wm as [wss Wm].
  assert (Lm : length (firstn n (skipn a ps)) = n) by (rewrite firstn_length, skipn_length; lia).
  rewrite (firstn_skipn3 ps a n). rewrite loop_skip; cycle 1.
  { rewrite <- (firstn_skipn a ps) in Dp. apply Forall_app in Dp. exact (proj1 Dp). }
  { rewrite firstn_length. lia. }
  rewrite (@loop_take T num first e (e - first + 1) errors mask _ wss Wm);
    [| rewrite firstn_length; lia | rewrite Lm, firstn_length; lia | rewrite Lm; lia].
  destruct (forallb _ wss); [| left; reflexivity]. right.
  rewrite loop_after; [| rewrite Lm, firstn_length; lia].
  eexists _, _. split; [reflexivity|]. cbn [app]. rewrite map_length, <- (Forall2_len Wm), Lm. split; [lia|].
  intros NE. assert (Ee : e = endRow) by (unfold e; destruct (Z.eqb_spec endRow (-1)); [contradiction | reflexivity]).
  lia.
Qed.
Print Assumptions C100_safe.

(** A comment that is longer than the buffer: its end is taken for a row of data. *)
Definition long_comment : str := "#"%char :: repeat "a"%char 1021 ++ lit "7 8".
Theorem C100_long_refuted : exists ls : list str,
  Forall no_newline ls /\ data_lines ls [] = [lit "1 2"; lit "3 4"] /\
  get_data (fun w => w) (text ls []) 0 (-1) false false =
    Ok (3, [(lit "7", lit "8", None, None); (lit "1", lit "2", None, None); (lit "3", lit "4", None, None)]).
Proof.
  exists [long_comment; lit "1 2"; lit "3 4"]. split; [| split; vm_compute; reflexivity].
  assert (K : forall l, forallb (fun c => negb (Ascii.eqb c (ascii_of_nat 10))) l = true -> no_newline l).
  { intros l H I. rewrite forallb_forall in H. specialize (H _ I). rewrite Ascii.eqb_refl in H. discriminate. }
  repeat constructor; apply K; vm_compute; reflexivity.
Qed.
Print Assumptions C100_long_refuted.

(** The message says the last row must be at or after the first one. A single row is never accepted, though. *)
Theorem C100_single_refuted : forall (T : Type) (num : str -> T) (file : str) (row : Z) (errors mask : bool),
  get_data num file row row errors mask = Abort.
Proof.
  intros T num file row errors mask. unfold get_data. destruct (_ || _)%bool; [reflexivity|].
  destruct (Z.ltb_spec row 0) as [L | L]; [reflexivity|]. cbn [orb].
  destruct (CountDataLines file <=? row); [reflexivity|].
  replace (row =? -1) with false by (symmetry; apply Z.eqb_neq; lia).
  rewrite Z.leb_refl. reflexivity.
Qed.
Print Assumptions C100_single_refuted.

(** The help says of --x1: 1 = first, 2 = second, etc. With --x1 1 the first row is left out, and --x2 with the number of
    rows is refused. *)
Theorem C100_numbering_refuted : forall (T : Type) (num : str -> T) (ls : list str) (last : str) (errors mask : bool)
    (wss : list (list str)),
  Forall short_line ls -> short_line last ->
  let data := data_lines ls last in
  3 <= Z.of_nat (length data) <= 1000000 ->
  Forall2 words data wss -> Forall (fun ws => (columns errors mask <= length ws)%nat) wss ->
  profilefit_data num (text ls last) None None errors mask =
    Ok (Z.of_nat (length data), map (row_of num errors mask) wss) /\
  profilefit_data num (text ls last) (Some 1) None errors mask =
    Ok (Z.of_nat (length data) - 1, map (row_of num errors mask) (tl wss)) /\
  forall x1, profilefit_data num (text ls last) x1 (Some (Z.of_nat (length data))) errors mask = Abort.
Proof.
  intros T num ls last errors mask wss F L data D W C.
  assert (All : forall w : list (list str), Forall (fun ws => (columns errors mask <= length ws)%nat) w ->
            forallb (fun ws => Nat.leb (columns errors mask) (length ws)) w = true).
  { intros w H. apply forallb_forall. intros x I. apply Nat.leb_le. rewrite Forall_forall in H. exact (H x I). }
  unfold profilefit_data. split; [| split].
  - rewrite (@C100_rows T num ls last 0 (Z.of_nat (length data) - 1) (-1) errors mask wss F L); fold data; try lia.
    + rewrite (All _ C). f_equal. f_equal. lia.
    + unfold rows_between. cbn [Z.to_nat skipn]. rewrite firstn_all2; [exact W | lia].
  - rewrite (@C100_rows T num ls last 1 (Z.of_nat (length data) - 1) (-1) errors mask (tl wss) F L); fold data; try lia.
    + rewrite All; [f_equal; f_equal; lia|]. destruct C; [constructor | assumption].
    + unfold rows_between. change (Z.to_nat 1) with 1%nat. rewrite firstn_all2; [| rewrite skipn_length; lia].
      destruct W; [constructor | assumption].
  - intros x1. unfold get_data. destruct (_ || _)%bool; [reflexivity|]. destruct (_ || _)%bool; [reflexivity|].
    assert (N : CountDataLines (text ls last) = Z.of_nat (length data)).
    { unfold CountDataLines. rewrite (Forall2_len (filter_stored (fgets_text F L))). reflexivity. }
    rewrite N. replace (Z.of_nat (length data) =? -1) with false by (symmetry; apply Z.eqb_neq; lia).
    rewrite Z.leb_refl, orb_true_r. reflexivity.
Qed.
Print Assumptions C100_numbering_refuted.

(** ** A case *)
Example C100_case :
  let ls := [lit "# x y err"; lit "1 2 3"; lit "#4 5 6"; lit " 7  8 9 10"; []; lit "11 12 13"] in
  data_lines ls (lit "14 15 16") = [lit "1 2 3"; lit " 7  8 9 10"; []; lit "11 12 13"; lit "14 15 16"] /\
  get_data (fun w => w) (text ls (lit "14 15 16")) 0 1 true false =
    Ok (2, [(lit "1", lit "2", Some (lit "3"), None); (lit "7", lit "8", Some (lit "9"), None)]) /\
  get_data (fun w => w) (text ls (lit "14 15 16")) 3 (-1) false false =
    Ok (2, [(lit "11", lit "12", None, None); (lit "14", lit "15", None, None)]) /\
  get_data (fun w => w) (text ls (lit "14 15 16")) 1 3 false false = Abort.
Proof. vm_compute. repeat split. Qed.
(** the hypotheses of C100_rows and C100_numbering_refuted are met by a file with a comment, three rows and no newline at the end *)
Example C100_met : exists wss,
  let ls := [lit "#c"; lit "1 2"; lit "3 4"] in
  Forall short_line ls /\ short_line (lit "5 6") /\ Z.of_nat (length (data_lines ls (lit "5 6"))) = 3 /\
  Forall2 words (data_lines ls (lit "5 6")) wss /\ Forall (fun ws => (columns false false <= length ws)%nat) wss /\
  profilefit_data (fun w => w) (text ls (lit "5 6")) (Some 1) None false false =
    Ok (2, [(lit "3", lit "4", None, None); (lit "5", lit "6", None, None)]).
Proof.
  assert (K : forall l, forallb (fun c => negb (Ascii.eqb c (ascii_of_nat 10))) l = true -> Nat.leb (length l) 1021 = true -> short_line l).
  { intros l H G. split; [| apply Nat.leb_le; exact G].
    intros I. rewrite forallb_forall in H. specialize (H _ I). rewrite Ascii.eqb_refl in H. discriminate. }
  assert (W : forall a b : ascii, ~ In a ws_delims -> ~ In b ws_delims -> words [a; ascii_of_nat 32; b] [[a]; [b]]).
  { intros a b A B. apply (@Tok_more _ [] [a] (ascii_of_nat 32) [b] [[b]]); [constructor | discriminate | repeat constructor; exact A | |].
    - cbn. tauto.
    - apply (@Tok_last _ [ascii_of_nat 32] [b]); [repeat constructor; cbn; tauto | discriminate | repeat constructor; exact B]. }
  exists [[lit "1"; lit "2"]; [lit "3"; lit "4"]; [lit "5"; lit "6"]]. cbv zeta.
  split; [repeat constructor; apply K; reflexivity|].
  split; [apply K; reflexivity|]. split; [reflexivity|].
  split; [| split; [repeat constructor | vm_compute; reflexivity]].
  cbn [data_lines lines_of]. repeat (constructor; [apply W; cbn; intuition discriminate|]). constructor.
Qed.
