(** Properties C01, C02, C03: text utilities. *)
From Verif Require Import StrUtil_Model StrUtil_Spec StrUtil_Proof.
Local Open Scope list_scope.

(** C01: tokenising. If a separator follows the first token, the result is exactly
    the list of tokens; otherwise the whole string comes back as one token. *)
Theorem C01_split_tokens : forall s d : str,
  HasLaterDelim (fun c => In c d) s ->
  exists toks, SplitString s d = Ok toks /\ Tokens (fun c => In c d) s toks.
Proof. intros s d. exact (proj1 (SplitString_ok d s)). Qed.
Print Assumptions C01_split_tokens.

Theorem C01_split_single : forall s d : str,
  ~ HasLaterDelim (fun c => In c d) s -> SplitString s d = Ok [s].
Proof. intros s d. exact (proj2 (SplitString_ok d s)). Qed.
Print Assumptions C01_split_single.

Theorem C01_split_add_tokens : forall (s : str) (old : list str) (d : str),
  exists new, SplitStringAdd s old d = Ok (old ++ new) /\ Tokens (fun c => In c d) s new.
Proof. intros s old d. exact (SplitStringAdd_ok d s old). Qed.
Print Assumptions C01_split_add_tokens.

(** the specification leaves no choice *)
Theorem C01_tokens_unique : forall delim s l1 l2, Tokens delim s l1 -> Tokens delim s l2 -> l1 = l2.
Proof. intros delim s l1 l2 H1 H2. exact (Tokens_unique delim s l1 H1 l2 H2). Qed.
Print Assumptions C01_tokens_unique.

Theorem C01_chop_comment : forall (s : str) (c : ascii),
  exists r rest, ChopComment s c = Ok r /\ s = r ++ rest /\ Forall (fun x => x <> c) r /\
                 (rest = [] \/ exists rest', rest = c :: rest').
Proof. intros s c. exact (ChopComment_ok s c). Qed.
Print Assumptions C01_chop_comment.

(** the "no later separator" exception matters: a leading blank stays in the token *)
Theorem C01_split_leading_blank_refuted :
  exists s toks toks', SplitString s ws_delims = Ok toks /\
    Tokens (fun c => In c ws_delims) s toks' /\ toks <> toks'.
Proof.
  exists (lit " abc"), [lit " abc"], [lit "abc"]. repeat split; [|discriminate].
  apply (Tok_last (fun c => In c ws_delims) [spc] (lit "abc")).
  - constructor; simpl; auto.
  - discriminate.
  - repeat constructor; simpl; intros H; repeat (destruct H as [H|H]; [discriminate|]); exact H.
Qed.
Print Assumptions C01_split_leading_blank_refuted.

Example C01_example : SplitString (lit "  X0  32.5 10,60 ") ws_delims = Ok [lit "X0"; lit "32.5"; lit "10,60"].
Proof. reflexivity. Qed.
Example C01_hyp_example : HasLaterDelim (fun c => In c ws_delims) (lit " X0 32").
Proof.
  exists [spc], (lit "X0"), spc, (lit "32"). repeat split; try discriminate.
  - constructor; simpl; auto.
  - repeat constructor; simpl; intros H; repeat (destruct H as [H|H]; [discriminate|]); exact H.
  - simpl; auto.
Qed.

(** C02: trimming. Full statement (false of the code):
      forall s, exists t, Trimmed blank s t /\ TrimWhitespace s = Ok t.
    What holds: it holds unless exactly one character remains, which is erased. *)
Theorem C02_trim_partial : forall s : str,
  exists t, Trimmed blank s t /\ TrimWhitespace s = Ok (if length t =? 1 then [] else t).
Proof. intros s. exact (TrimWhitespace_ok s). Qed.
Print Assumptions C02_trim_partial.

Theorem C02_trim_unique : forall s t1 t2, Trimmed blank s t1 -> Trimmed blank s t2 -> t1 = t2.
Proof. intros s t1 t2 H1 H2. exact (Trimmed_unique H1 H2). Qed.
Print Assumptions C02_trim_unique.

Theorem C02_trim_refuted : exists s t,
  Trimmed blank s t /\ t <> [] /\ TrimWhitespace s = Ok [].
Proof.
  exists (lit " a "), (lit "a"). split; [|split; [discriminate|reflexivity]].
  exists [spc], [spc].
  split; [reflexivity|]. split; [constructor; [left; reflexivity|constructor]|].
  split; [constructor; [left; reflexivity|constructor]|].
  right. assert (N : ~ blank "a"%char) by (intros [H|[H|H]]; discriminate).
    split; [exists "a"%char, []; auto|exists [], "a"%char; auto].
Qed.
Print Assumptions C02_trim_refuted.

Example C02_example : TrimWhitespace (lit "  two words ") = Ok (lit "two words").
Proof. reflexivity. Qed.

(** C03: image-section offsets. *)
Theorem C03_offset_section : forall (base sec tail : str) (x y : Z),
  no_char 91 base -> Section_ sec x y -> no_char 91 tail ->
  (x <= INT_MAX)%Z -> (y <= INT_MAX)%Z ->
  DetermineImageOffset (base ++ lbr :: sec ++ rbr :: tail) = Ok (x - 1, y - 1)%Z.
Proof. intros base sec tail x y H1 H2 H3 H4 H5. exact (offset_section H1 H2 H3 H4 H5). Qed.
Print Assumptions C03_offset_section.

Theorem C03_offset_extension_and_section : forall (base ext mid sec tail : str) (x y : Z),
  no_char 91 base -> ext <> [] -> no_char 93 ext -> no_char 44 ext -> no_char 91 mid ->
  Section_ sec x y -> (x <= INT_MAX)%Z -> (y <= INT_MAX)%Z ->
  DetermineImageOffset (base ++ lbr :: ext ++ rbr :: mid ++ lbr :: sec ++ rbr :: tail)
  = Ok (x - 1, y - 1)%Z.
Proof.
  intros base ext mid sec tail x y H1 H2 H3 H4 H5 H6 H7 H8.
  exact (offset_ext_section tail H1 H2 H3 H4 H5 H6 H7 H8).
Qed.
Print Assumptions C03_offset_extension_and_section.

Theorem C03_offset_plain : forall base : str, no_char 91 base -> DetermineImageOffset base = Ok (0, 0)%Z.
Proof. intros base H. exact (offset_plain H). Qed.
Print Assumptions C03_offset_plain.

(** The source comment promises offsets >= 0; a malformed section gives -1
    together with a success-looking result. *)
Theorem C03_offset_nonneg_refuted : exists name x y,
  DetermineImageOffset name = Ok (x, y) /\ (x < 0)%Z /\ (y < 0)%Z.
Proof. exists (lit "a.fits[10:20,5"), (-1)%Z, (-1)%Z. repeat split; reflexivity. Qed.
Print Assumptions C03_offset_nonneg_refuted.

(** GetAllCoordsFromBracket: a section whose x part has no ':' runs into undefined
    behaviour (missing return at core/utilities.cpp:324), and "*" yields the range 1..0. *)
Theorem C03_all_coords_undefined : GetAllCoordsFromBracket (lit "10,20:30") = Undef.
Proof. reflexivity. Qed.
Print Assumptions C03_all_coords_undefined.
Theorem C03_all_coords_star : GetAllCoordsFromBracket (lit "*,*") = Ok (1, 0, 1, 0)%Z.
Proof. reflexivity. Qed.
Print Assumptions C03_all_coords_star.

Example C03_example : DetermineImageOffset (lit "dir/ngc.fits[101:250,400:500]") = Ok (100, 399)%Z.
Proof. reflexivity. Qed.
Example C03_example2 : DetermineImageOffset (lit "n.fits[1][101:250,*]") = Ok (100, 0)%Z.
Proof. reflexivity. Qed.
Lemma C03_digits_example : Digits (lit "101") 101.
Proof.
  change (lit "101") with (lit "10" ++ ["1"%char]). change 101%Z with (10 * 10 + 1)%Z.
  apply Dig_more; [|split; [lia|reflexivity]].
  change (lit "10") with (lit "1" ++ ["0"%char]). change 10%Z with (10 * 1 + 0)%Z.
  apply Dig_more; [|split; [lia|reflexivity]].
  apply Dig_one. split; [lia|reflexivity].
Qed.
Example C03_hyp_example : Section_ (lit "101:101,*") 101 1.
Proof.
  exists (lit "101:101"), star. repeat split.
  - exact (Sec_range _ _ _ _ C03_digits_example C03_digits_example).
  - constructor.
Qed.
