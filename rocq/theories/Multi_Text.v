From Coq Require Import Ascii String List ZArith Lia Bool Reals.
From Verif Require Import Base Num StrUtil_Model StrUtil_Spec StrUtil_Proof Config_Model Config_Spec Config_Proof.
From Verif Require Import ImgPar_Model ImgPar_Spec ImgPar_Proof Params_Model Build_Model Save_Model Save_Spec Save_Proof Save_Final.
From Verif Require Import Multi_Model Multi_Draw Multi_TextSpec.
Set Implicit Arguments. Unset Strict Implicit.
Local Open Scope list_scope.

Notation c_str := StrUtil_Model.c_str.
Lemma c_str_id s : NoNul s -> c_str s = s.
Proof.
  intros H. unfold c_str. replace (index_of (ch_eqb zero) s) with (@None nat); auto.
  symmetry. induction H as [|c s Hc HF IH]; [reflexivity|]. cbn [index_of].
  destruct (ch_eqb zero c) eqn:E; [apply ch_eqb_true in E; subst; exfalso; apply Hc; reflexivity|]. now rewrite IH.
Qed.
(** ---- section keywords ---- *)
Definition NoSec (s : text) : Prop := ~ Kw "IMAGE_START" s /\ ~ Kw "FUNCTIONS_START" s.
Definition sepc (c : ascii) : Prop := In c [ascii_of_nat 9; ascii_of_nat 10; ascii_of_nat 32; ascii_of_nat 35].
Lemma sepc_no c : sepc c -> ~ In c (list_ascii_of_string "IMAGE_START") /\ ~ In c (list_ascii_of_string "FUNCTIONS_START").
Proof.
  intros [<-|[<-|[<-|[<-|[]]]]]; split; cbn [list_ascii_of_string In];
    repeat (intros [H|H]; [discriminate H|revert H]); intros [].
Qed.
Lemma NoSec_sep a b c : sepc c -> NoSec a -> NoSec b -> NoSec (a ++ c :: b).
Proof.
  intros Hc [A1 A2] [B1 B2]. destruct (sepc_no Hc) as [S1 S2].
  split; intros K; [destruct (Kw_sep S1 K)|destruct (Kw_sep S2 K)]; auto.
Qed.
Lemma NoSec_small s : Forall (fun c => ~ capital c) s -> NoSec s.
Proof.
  intros H. rewrite Forall_forall in H.
  split; intros (a & b & E); [apply (H (ascii_of_nat 73))|apply (H (ascii_of_nat 70))];
    try (rewrite E; apply in_or_app; right; apply in_or_app; left; left; reflexivity); unfold capital; cbn; lia.
Qed.
Lemma NoSec_nil : NoSec []. Proof. apply NoSec_small. constructor. Qed.
Lemma NoSec_harmless s : Forall Harmless s -> NoSec s.
Proof. intros H. apply NoSec_small. eapply Forall_impl; [|exact H]. intros c (_ & _ & Hc). exact Hc. Qed.
Lemma blank_sepc c : Blank c -> sepc c.
Proof. intros [<-|[<-|[<-|[]]]]; unfold sepc; cbn; auto. Qed.
Lemma NoSec_blanks g s : Forall Blank g -> NoSec s -> NoSec (g ++ s).
Proof. induction 1; cbn [app]; auto. intros. apply (@NoSec_sep [] _ x); auto using NoSec_nil, blank_sepc. Qed.
Lemma NoSec_gap w g s : NoSec w -> g <> [] -> Forall Blank g -> NoSec s -> NoSec (w ++ g ++ s).
Proof.
  intros Hw Hn Hg Hs. destruct g as [|c g]; [congruence|]. inversion Hg; subst.
  change ((c :: g) ++ s) with (c :: (g ++ s)). apply NoSec_sep; auto using blank_sepc, NoSec_blanks.
Qed.
Lemma NoSec_lit s : negb (has "IMAGE_START" (lit s)) && negb (has "FUNCTIONS_START" (lit s)) = true -> NoSec (lit s).
Proof.
  intros H. apply andb_true_iff in H. destruct H as [A B]. apply negb_true_iff in A, B.
  split; intros K; apply has_true in K; congruence.
Qed.

(** ---- a line: keyword, value and perhaps an error ---- *)
Definition Tail (t : text) : Prop := t = [] \/ exists e, t = lit " # +/- " ++ e /\ Forall Harmless e /\ List.length e <= 400.
Lemma nb_word w : WordChars w -> w <> [] /\ Forall (fun c => ~ Blank c) w.
Proof. intros [H HF]. split; auto. eapply Forall_impl; [|exact HF]. cbn. tauto. Qed.
Lemma tokens_more lead w c r ts : Forall Blank lead -> WordChars w -> Blank c -> Tokens Blank (c :: r) ts ->
  Tokens Blank (lead ++ w ++ c :: r) (w :: ts).
Proof. intros Hl Hw Hc HT. destruct (nb_word Hw). apply Tok_more; auto. Qed.
Lemma sp1 : Forall Blank [ascii_of_nat 32]. Proof. constructor; [exact blank32|constructor]. Qed.
Lemma hash_tokens e : exists ts, Tokens Blank (lit " # +/- " ++ e) (lit "#" :: ts).
Proof.
  destruct (Tokens_exist (lit " +/- " ++ e)) as (ts & HT). exists ts.
  change (lit " # +/- " ++ e) with ([ascii_of_nat 32] ++ lit "#" ++ ascii_of_nat 32 :: (lit "+/- " ++ e)).
  apply Tok_more; auto using blank32.
  - exact sp1.
  - discriminate.
  - repeat constructor. intros [H|[H|[H|[]]]]; discriminate H.
Qed.
Lemma ent_says key g v tl : WordChars key -> NoSec key -> g <> [] -> Forall Blank g -> WordChars v -> NoSec v -> Tail tl ->
  SaysI (IEntry (EPlain key v LNone)) (key ++ g ++ v ++ tl).
Proof.
  intros Wk Nk Hn Hg Wv Nv Ht. cbn [SaysI entry_words limit_words].
  assert (HS : NoSec (key ++ g ++ v ++ tl)).
  { apply NoSec_gap; auto. destruct Ht as [->|(e & -> & He & _)]; [now rewrite app_nil_r|].
    change (lit " # +/- " ++ e) with ([ascii_of_nat 32] ++ (lit "# +/- " ++ e)). apply NoSec_gap; auto; [discriminate|exact sp1|].
    change (lit "# +/- " ++ e) with (lit "# +/-" ++ [ascii_of_nat 32] ++ e).
    apply NoSec_gap; [apply NoSec_lit; reflexivity|discriminate|exact sp1|now apply NoSec_harmless]. }
  destruct HS as [H1 H2]. split; [exact H1|]. split; [exact H2|]. split.
  - destruct Ht as [->|(e & -> & He & _)].
    + apply (@words2 key g v [] []); auto. now left.
    + change (lit " # +/- " ++ e) with ([ascii_of_nat 32] ++ (lit "# +/- " ++ e)).
      apply words2; auto; [exact sp1|]. right. exists (lit " +/- " ++ e). reflexivity.
  - destruct g as [|c g]; [congruence|]. inversion Hg as [|? ? Hc Hg']; subst.
    destruct Ht as [->|(e & -> & He & _)].
    + exists []. split; [|exact I]. cbn [app]. rewrite app_nil_r. apply (@tokens_more [] key c (g ++ v) [v]); auto.
      destruct (nb_word Wv). apply (@Tok_last Blank (c :: g) v); auto.
    + destruct (hash_tokens e) as (ts & HT). exists (lit "#" :: ts). split.
      * cbn [app]. apply (@tokens_more [] key c (g ++ v ++ lit " # +/- " ++ e)); auto.
        change (c :: g ++ v ++ lit " # +/- " ++ e) with ((c :: g) ++ v ++ ascii_of_nat 32 :: (lit "# +/- " ++ e)).
        apply tokens_more; auto using blank32.
      * split; [|discriminate]. repeat constructor; discriminate.
Qed.

(** ---- strings and the lines they make ---- *)
Lemma FileSaysI_app d1 l1 d2 l2 : FileSaysI d1 l1 -> FileSaysI d2 l2 -> FileSaysI (d1 ++ d2) (l1 ++ l2).
Proof. induction 1; cbn [app]; intros; [auto|apply FI_skip; auto|apply FI_line; auto]. Qed.
Definition Lns (ds : list iline) (ss : list str) : Prop :=
  exists bs, ss = map (fun b => b ++ NL) bs /\ Forall OneLine bs /\ FileSaysI ds bs.
Lemma Lns_nil : Lns [] []. Proof. exists []. repeat constructor. Qed.
Lemma Lns_app d1 s1 d2 s2 : Lns d1 s1 -> Lns d2 s2 -> Lns (d1 ++ d2) (s1 ++ s2).
Proof.
  intros (b1 & -> & C1 & F1) (b2 & -> & C2 & F2). exists (b1 ++ b2). split; [now rewrite map_app|].
  split; [apply Forall_app; auto|now apply FileSaysI_app].
Qed.
Lemma Lns_one d b : OneLine b -> SaysI d b -> Lns [d] [b ++ NL].
Proof. intros C S. exists [b]. split; [reflexivity|]. split; [repeat constructor; auto|]. apply FI_line; auto. constructor. Qed.
Lemma Lns_skip b : OneLine b -> Ignorable b -> Lns [] [b ++ NL].
Proof. intros C S. exists [b]. split; [reflexivity|]. split; [repeat constructor; auto|]. apply FI_skip; auto. constructor. Qed.
Lemma Lns_start : Lns [IStart] [lit "IMAGE_START" ++ NL].
Proof.
  apply Lns_one; [apply oneline_true; reflexivity|]. split.
  - intros K. apply has_true in K. vm_compute in K. discriminate.
  - exists []. apply (@tokens_last (lit "IMAGE_START") []); [apply word_true; reflexivity|constructor].
Qed.
Lemma Lns_blank : Lns [] [NL].
Proof. apply (@Lns_skip []); [constructor|]. exists [], []. repeat split; auto. Qed.

Definition Word (v : text) (n : nat) : Prop := WordChars v /\ NoSec v /\ OneLine v /\ List.length v <= n.
Lemma file_word w : GoodFile w -> Word w 900.
Proof.
  intros (H1 & H2 & H3 & H4 & H5). split; [split; auto|]. { eapply Forall_impl; [|exact H3]. cbn. tauto. }
  split; [split; auto|]. split; auto. eapply Forall_impl; [|exact H3]. cbn. intros c (A & B & C). split; [exact B|].
  intros ->. apply A. left. reflexivity.
Qed.
Lemma decimal_word s r n : Decimal s r -> List.length s <= n -> Word s n.
Proof. intros H HL. destruct (Decimal_word H). split; auto. split; [now apply NoSec_harmless|]. split; auto. now apply Harmless_oneline. Qed.
Lemma digits_word s v n : Digits s v -> List.length s <= n -> Word s n.
Proof.
  intros H HL. destruct (Digits_chars H) as [C Hn].
  assert (HH : Forall Harmless s) by (eapply Forall_impl; [|exact C]; intros c Hc; apply (NumChar_props Hc)).
  split; [|split; [now apply NoSec_harmless|split; auto; now apply Harmless_oneline]].
  split; auto. eapply Forall_impl; [|exact C]. intros c Hc. destruct (NumChar_props Hc) as (A & B & _). auto.
Qed.
Definition keyb (k : string) : bool :=
  word_b (lit k) && oneline_b (lit k) && (negb (has "IMAGE_START" (lit k)) && negb (has "FUNCTIONS_START" (lit k))) && (List.length (lit k) <=? 30).
Lemma key_true k : keyb k = true -> Word (lit k) 30.
Proof.
  unfold keyb. intros H. apply andb_true_iff in H. destruct H as [H H4]. apply andb_true_iff in H. destruct H as [H H3].
  apply andb_true_iff in H. destruct H as [H1 H2]. split; [now apply word_true|]. split; [now apply NoSec_lit|].
  split; [now apply oneline_true|now apply Nat.leb_le].
Qed.
Lemma Tail_oneline t : Tail t -> OneLine t /\ List.length t <= 407.
Proof.
  intros [->|(e & -> & He & HL)]; [split; [constructor|cbn; lia]|]. split.
  - apply OneLine_app; [apply oneline_true; reflexivity|now apply Harmless_oneline].
  - rewrite app_length. cbn [List.length lit list_ascii_of_string]. unfold lit. cbn. lia.
Qed.
Lemma Blank_oneline g : Forall (fun c => c = ascii_of_nat 9 \/ c = ascii_of_nat 32) g -> Forall Blank g /\ OneLine g.
Proof.
  intros H. split; (eapply Forall_impl; [|exact H]); intros c [->| ->]; auto using blank9, blank32; split; discriminate.
Qed.
Lemma Lns_ent k g v tl n : keyb k = true -> g <> [] -> Forall (fun c => c = ascii_of_nat 9 \/ c = ascii_of_nat 32) g -> Word v n -> Tail tl ->
  Lns [IEntry (EPlain (lit k) v LNone)] [(lit k ++ g ++ v ++ tl) ++ NL].
Proof.
  intros Hk Hn Hg (W1 & W2 & W3 & W4) Ht. destruct (key_true Hk) as (K1 & K2 & K3 & K4). destruct (Blank_oneline Hg) as [B1 B2].
  apply Lns_one; [|now apply ent_says]. repeat apply OneLine_app; auto. now apply Tail_oneline.
Qed.

(** ---- the entries of one image ---- *)
Definition ent (k : string) (o : option text) : list ientry := match o with None => [] | Some v => [EPlain (lit k) v LNone] end.
Definition unless (b : bool) (v : text) : option text := if b then None else Some v.
Section Over.
Variable dec : nat -> text.
Variables (fs : list text) (ss : list Z) (rs : list text).
Definition over_at (i : nat) : list ientry :=
  match nth_error fs i, nth_error ss i with
  | Some f, Some z => [EPlain (lit "OVERSAMPLED_PSF") f LNone; EPlain (lit "OVERSAMPLE_SCALE") (dec (Z.to_nat z)) LNone]
  | _, _ => []
  end ++ match nth_error rs i with Some r => [EPlain (lit "OVERSAMPLED_REGION") r LNone] | None => [] end.
Definition overs : list ientry := flat_map over_at (seq 0 (List.length rs)).
End Over.

Section Save.
Variable T : Type.
Variable N : Num T.
Variable toR : T -> R.
Variable finite : T -> Prop.
Variable f4 g g5 : T -> text.
Variable dec : nat -> text.
Variable strtod : text -> T.
Variable strtol : text -> Z.
Hypothesis HP : PrintfOK toR finite f4 g g5.
Hypothesis HI : IntsOK dec strtol.

Definition desc_ents (d : list text) : list ientry :=
  match d with
  | [t0; t1; t2; t3; t4] => ent "PIXEL_SCALE" (Some t0) ++ ent "IMAGE_PA" (Some t1) ++ ent "FLUX_SCALE" (Some t2) ++
                            ent "X0" (Some t3) ++ ent "Y0" (Some t4)
  | _ => []
  end.
Definition info_ents (im : ImageInfo T) (d : list text) : list ientry :=
  ent "DATA" (i_dataFile im) ++
  ent "ORIGINAL_SKY" (unless (neqb N (i_originalSky im) (nofZ N 0)) (g (i_originalSky im))) ++
  ent "GAIN" (unless (neqb N (i_gain im) (nofZ N 1)) (g (i_gain im))) ++
  ent "READNOISE" (unless (neqb N (i_readNoise im) (nofZ N 0)) (g (i_readNoise im))) ++
  ent "MASK" (i_maskFile im) ++ ent "ERROR" (i_errorFile im) ++ ent "PSF" (i_psfFile im) ++
  overs dec (i_overFiles im) (i_overScales im) (i_overRegions im) ++ desc_ents d.

(** each step of the writer appends lines that say some entries *)
Definition Step (r : list str -> res (list str)) (es : list ientry) : Prop :=
  exists ss, (forall s, r s = Ok (s ++ ss)) /\ Lns (map IEntry es) ss.
Lemma Step_nil : Step (fun s => Ok s) []. Proof. exists []. split; [intros; now rewrite app_nil_r|apply Lns_nil]. Qed.

Lemma four : Forall (fun c => c = ascii_of_nat 9 \/ c = ascii_of_nat 32) (lit "    "). Proof. repeat constructor; right; reflexivity. Qed.
Lemma put_name_ok k o : keyb k = true -> GoodFile' o ->
  Step (fun s => match o with None => Ok s | Some n => do l <- PrintToString (lit k ++ lit "    " ++ c_str n ++ NL); Ok (s ++ [l]) end) (ent k o).
Proof.
  intros Hk Ho. destruct o as [n|]; [|apply Step_nil]. cbn in Ho. pose proof (file_word Ho) as HW.
  destruct HW as (W1 & W2 & W3 & W4). destruct (key_true Hk) as (K1 & K2 & K3 & K4).
  exists [(lit k ++ lit "    " ++ n ++ []) ++ NL]. split.
  - intros s. rewrite (c_str_id (OneLine_NoNul W3)). rewrite print_short.
    + cbn [bind]. now rewrite app_nil_r, <- !app_assoc.
    + rewrite !app_length. change (List.length (lit "    ")) with 4. change (List.length NL) with 1. lia.
  - apply (@Lns_ent k (lit "    ") n [] 900); auto using four; [discriminate|now apply file_word|now left].
Qed.
Lemma tabs : Forall (fun c => c = ascii_of_nat 9 \/ c = ascii_of_nat 32) (TAB ++ TAB). Proof. repeat constructor; left; reflexivity. Qed.
Lemma num_word v : finite v -> exists r, Decimal (g v) r /\ (Rabs (r - toR v) <= 5 / 1000000 * Rabs (toR v))%R /\ Word (g v) 400.
Proof. intros Hv. destruct (g_value _ _ _ _ _ _ HP v Hv) as (r & D & E). exists r. repeat (split; auto). all: apply (decimal_word D (g_text _ _ _ _ _ _ HP v)). Qed.
Lemma put_num_ok k v d : keyb k = true -> finite v ->
  Step (fun s => if negb (neqb N v d) then (do l <- PrintToString (lit k ++ TAB ++ TAB ++ g v ++ NL); Ok (s ++ [l])) else Ok s)
    (ent k (unless (neqb N v d) (g v))).
Proof.
  intros Hk Hv. destruct (neqb N v d); cbn [negb unless ent]; [apply Step_nil|].
  destruct (num_word Hv) as (r & D & _ & HW). pose proof HW as (W1 & W2 & W3 & W4). destruct (key_true Hk) as (K1 & K2 & K3 & K4).
  exists [(lit k ++ (TAB ++ TAB) ++ g v ++ []) ++ NL]. split.
  - intros s. rewrite print_short.
    + cbn [bind]. now rewrite app_nil_r, <- !app_assoc.
    + rewrite !app_length. change (List.length TAB) with 1. change (List.length NL) with 1. lia.
  - apply (@Lns_ent k (TAB ++ TAB) (g v) [] 400); auto using tabs; [discriminate|now left].
Qed.

Lemma over_ok fs ss rs : Forall Int ss -> Forall GoodFile fs -> Forall GoodFile rs -> List.length fs = List.length ss -> (List.length fs <= List.length rs) ->
  (fs = [] -> rs = []) ->
  Step (fun s => match fs with
           | [] => Ok s
           | _ :: _ =>
               for_ (List.length rs) (fun i s =>
                 do s <- (if (i <? List.length fs)%nat then
                            do f <- get fs i;
                            do l1 <- PrintToString (lit "OVERSAMPLED_PSF         " ++ c_str f ++ NL);
                            do sc <- get ss i;
                            do l2 <- PrintToString (lit "OVERSAMPLE_SCALE        " ++ dec (Z.to_nat sc) ++ NL);
                            Ok (s ++ [l1; l2])
                          else Ok s);
                 do r <- get rs i;
                 do l3 <- PrintToString (lit "OVERSAMPLED_REGION      " ++ c_str r ++ NL);
                 Ok (s ++ [l3])) s
           end) (overs dec fs ss rs).
Proof.
  intros Hz Hf Hr Hl Hlr H0.
  assert (E1 : lit "OVERSAMPLED_PSF         " = lit "OVERSAMPLED_PSF" ++ lit "         ") by reflexivity.
  assert (E2 : lit "OVERSAMPLE_SCALE        " = lit "OVERSAMPLE_SCALE" ++ lit "        ") by reflexivity.
  assert (E3 : lit "OVERSAMPLED_REGION      " = lit "OVERSAMPLED_REGION" ++ lit "      ") by reflexivity.
  assert (PR : forall k n w, keyb k = true -> Word w 900 -> n < 10 -> n <> 0 ->
    PrintToString ((lit k ++ repeat (ascii_of_nat 32) n) ++ w ++ NL) = Ok ((lit k ++ repeat (ascii_of_nat 32) n ++ w ++ []) ++ NL) /\
    Lns [IEntry (EPlain (lit k) w LNone)] [(lit k ++ repeat (ascii_of_nat 32) n ++ w ++ []) ++ NL]).
  { intros k n w Hk HW Hn Hn0. pose proof HW as (W1 & W2 & W3 & W4). destruct (key_true Hk) as (K1 & K2 & K3 & K4). split.
    - rewrite print_short; [now rewrite app_nil_r, <- !app_assoc|].
      rewrite !app_length, repeat_length. change (List.length NL) with 1. lia.
    - apply (@Lns_ent k (repeat (ascii_of_nat 32) n) w [] 900); auto; [destruct n; [lia|discriminate]| |now left].
      apply Forall_forall. intros c Hc. apply repeat_spec in Hc. auto. }
  destruct fs as [|f0 fs0] eqn:Ef.
  { rewrite (H0 eq_refl). apply Step_nil. }
  rewrite <- Ef in *. clear H0.
  assert (HL : forall n, n <= List.length rs -> exists st, (forall s,
     for_ n (fun i s =>
                 do s <- (if (i <? List.length fs)%nat then
                            do f <- get fs i;
                            do l1 <- PrintToString (lit "OVERSAMPLED_PSF         " ++ c_str f ++ NL);
                            do sc <- get ss i;
                            do l2 <- PrintToString (lit "OVERSAMPLE_SCALE        " ++ dec (Z.to_nat sc) ++ NL);
                            Ok (s ++ [l1; l2])
                          else Ok s);
                 do r <- get rs i;
                 do l3 <- PrintToString (lit "OVERSAMPLED_REGION      " ++ c_str r ++ NL);
                 Ok (s ++ [l3])) s = Ok (s ++ st)) /\ Lns (map IEntry (flat_map (over_at dec fs ss rs) (seq 0 n))) st).
  { induction n as [|n IH]; intros Hn.
    - exists []. split; [intros; now rewrite app_nil_r|apply Lns_nil].
    - destruct IH as (st & E & HS); [lia|].
      destruct (nth_error rs n) as [r|] eqn:Er; [|apply nth_error_None in Er; lia].
      assert (Wr : Word r 900) by (apply file_word; rewrite Forall_forall in Hr; apply Hr; eapply nth_error_In; eauto).
      pose proof Wr as (_ & _ & Or & _).
      destruct (@PR "OVERSAMPLED_REGION"%string 6 r) as [P3 L3]; auto; try lia.
      rewrite seq_S, flat_map_app. cbn [flat_map Nat.add]. rewrite app_nil_r, map_app. unfold over_at at 2. rewrite Er.
      destruct (Nat.ltb_spec n (List.length fs)) as [HC|HC].
      + destruct (nth_error fs n) as [f|] eqn:E_f; [|apply nth_error_None in E_f; lia].
        destruct (nth_error ss n) as [z|] eqn:E_z; [|apply nth_error_None in E_z; lia].
        assert (Wf : Word f 900) by (apply file_word; rewrite Forall_forall in Hf; apply Hf; eapply nth_error_In; eauto).
        pose proof Wf as (_ & _ & Of & _).
        assert (Iz : Int z) by (rewrite Forall_forall in Hz; apply Hz; eapply nth_error_In; eauto). unfold Int in Iz.
        destruct (dec_value _ _ HI (Z.to_nat z)) as (Dz & Lz & _); [unfold Int; lia|].
        assert (Wz : Word (dec (Z.to_nat z)) 900) by (apply (@digits_word _ (Z.of_nat (Z.to_nat z))); auto; lia).
        destruct (@PR "OVERSAMPLED_PSF"%string 9 f) as [P1 L1]; auto; try lia.
        destruct (@PR "OVERSAMPLE_SCALE"%string 8 (dec (Z.to_nat z))) as [P2 L2]; auto; try lia.
        eexists. split.
        * intros s. rewrite for_S, E. cbn [bind]. destruct (Nat.ltb_spec n (List.length fs)); [|lia].
          unfold get at 1. rewrite E_f. cbn [bind]. rewrite (c_str_id (OneLine_NoNul Of)), E1. change (lit "         ") with (repeat (ascii_of_nat 32) 9). rewrite P1. cbn [bind].
          unfold get at 1. rewrite E_z. cbn [bind]. rewrite E2. change (lit "        ") with (repeat (ascii_of_nat 32) 8). rewrite P2. cbn [bind].
          unfold get at 1. rewrite Er. cbn [bind]. rewrite (c_str_id (OneLine_NoNul Or)), E3. change (lit "      ") with (repeat (ascii_of_nat 32) 6). rewrite P3. cbn [bind].
          rewrite <- !(@app_assoc str). reflexivity.
        * apply Lns_app; auto. exact (Lns_app (Lns_app L1 L2) L3).
      + assert (E_f : nth_error fs n = None) by (apply nth_error_None; lia). rewrite E_f. cbn [app].
        eexists. split.
        * intros s. rewrite for_S, E. cbn [bind]. destruct (Nat.ltb_spec n (List.length fs)); [lia|]. cbn [bind].
          unfold get at 1. rewrite Er. cbn [bind]. rewrite (c_str_id (OneLine_NoNul Or)), E3. change (lit "      ") with (repeat (ascii_of_nat 32) 6). rewrite P3. cbn [bind].
          rewrite <- !(@app_assoc str). reflexivity.
        * apply Lns_app; auto. }
  destruct (HL (List.length rs) (le_n _)) as (st & E & HS). exists st. split; [|exact HS].
  intros s. rewrite <- E. rewrite Ef. reflexivity.
Qed.

(** ---- description lines ---- *)
Lemma gap_pad n : Forall (fun c => c = ascii_of_nat 9 \/ c = ascii_of_nat 32) (TAB ++ TAB ++ repeat (ascii_of_nat 32) n).
Proof.
  apply Forall_app. split; [repeat constructor; left; reflexivity|]. apply Forall_app. split; [repeat constructor; left; reflexivity|].
  apply Forall_forall. intros c Hc. apply repeat_spec in Hc. auto.
Qed.
Lemma par_none k v : keyb k = true -> finite v ->
  exists l, (do l <- PrintToString (par_text g [] (lit k) v); Ok (l ++ NL)) = Ok l /\ Lns [IEntry (EPlain (lit k) (g v) LNone)] [l].
Proof.
  intros Hk Hv. destruct (num_word Hv) as (r & D & _ & HW). pose proof HW as (W1 & W2 & W3 & W4). destruct (key_true Hk) as (K1 & K2 & K3 & K4).
  unfold par_text. destruct (pad7_split (g v)) as (n & E & Hn). rewrite E.
  exists ((lit k ++ (TAB ++ TAB ++ repeat (ascii_of_nat 32) n) ++ g v ++ []) ++ NL). split.
  - rewrite print_short.
    + cbn [bind app]. now rewrite app_nil_r, <- !app_assoc.
    + cbn [app]. rewrite !app_length, repeat_length. change (List.length TAB) with 1. lia.
  - apply (@Lns_ent k _ (g v) [] 400); auto using gap_pad; [discriminate|now left].
Qed.
Lemma par_err k v e : keyb k = true -> finite v ->
  exists l, (do l <- PrintToString (par_text_err g g5 [] (lit k) v e); Ok (l ++ NL)) = Ok l /\ Lns [IEntry (EPlain (lit k) (g v) LNone)] [l].
Proof.
  intros Hk Hv. destruct (num_word Hv) as (r & D & _ & HW). pose proof HW as (W1 & W2 & W3 & W4). destruct (key_true Hk) as (K1 & K2 & K3 & K4).
  destruct (g5_text _ _ _ _ _ _ HP e) as [G1 G2].
  unfold par_text_err. destruct (pad7_split (g v)) as (n & E & Hn). rewrite E.
  exists ((lit k ++ (TAB ++ TAB ++ repeat (ascii_of_nat 32) n) ++ g v ++ (lit " # +/- " ++ g5 e)) ++ NL). split.
  - rewrite print_short.
    + cbn [bind app]. now rewrite <- !app_assoc.
    + cbn [app]. rewrite !app_length, repeat_length. change (List.length TAB) with 1. change (List.length (lit " # +/- ")) with 7. lia.
  - apply (@Lns_ent k _ (g v) _ 400); auto using gap_pad; [discriminate|]. right. exists (g5 e). auto.
Qed.
Lemma f4_word v : finite v -> Word (f4 v) 400.
Proof.
  intros Hv. destruct (f4_value _ _ _ _ _ _ HP v Hv) as (r & D & _). apply (decimal_word D). apply (f4_text _ _ _ _ _ _ HP v).
Qed.
Lemma xy_none k v : keyb k = true -> finite v ->
  exists l, PrintToString (xy_line f4 [] (lit k) v) = Ok l /\ Lns [IEntry (EPlain (lit k) (f4 v) LNone)] [l].
Proof.
  intros Hk Hv. pose proof (f4_word Hv) as HW. pose proof HW as (W1 & W2 & W3 & W4). destruct (key_true Hk) as (K1 & K2 & K3 & K4).
  unfold xy_line. exists ((lit k ++ (TAB ++ TAB) ++ f4 v ++ []) ++ NL). split.
  - rewrite print_short.
    + cbn [bind app]. now rewrite app_nil_r, <- !app_assoc.
    + cbn [app]. rewrite !app_length. change (List.length TAB) with 1. change (List.length NL) with 1. lia.
  - apply (@Lns_ent k _ (f4 v) [] 400); auto using tabs; [discriminate|now left].
Qed.
Lemma xy_err k v e : keyb k = true -> finite v ->
  exists l, PrintToString (xy_line_err f4 [] (lit k) v e) = Ok l /\ Lns [IEntry (EPlain (lit k) (f4 v) LNone)] [l].
Proof.
  intros Hk Hv. pose proof (f4_word Hv) as HW. pose proof HW as (W1 & W2 & W3 & W4). destruct (key_true Hk) as (K1 & K2 & K3 & K4).
  destruct (f4_text _ _ _ _ _ _ HP e) as [G1 G2].
  unfold xy_line_err. exists ((lit k ++ (TAB ++ TAB) ++ f4 v ++ (lit " # +/- " ++ f4 e)) ++ NL). split.
  - rewrite print_short.
    + cbn [bind app]. now rewrite <- !app_assoc.
    + cbn [app]. rewrite !app_length. change (List.length TAB) with 1. change (List.length (lit " # +/- ")) with 7. change (List.length NL) with 1. lia.
  - apply (@Lns_ent k _ (f4 v) _ 400); auto using tabs; [discriminate|]. right. exists (f4 e). auto.
Qed.

Definition texts (vs : list T) : list text :=
  match vs with [v0; v1; v2; v3; v4] => [g v0; g v1; g v2; f4 v3; f4 v4] | _ => [] end.
Definition five (a b c d e : list str) := a ++ b ++ c ++ d ++ e.
Lemma desc_ok desc off errs v0 v1 v2 v3 v4 :
  get desc (0 + off) = Ok v0 -> get desc (1 + off) = Ok v1 -> get desc (2 + off) = Ok v2 -> get desc (3 + off) = Ok v3 -> get desc (4 + off) = Ok v4 ->
  Forall finite [v0; v1; v2; v3; v4] -> (forall es, errs = Some es -> off + 5 <= List.length es) ->
  Step (fun s => let par k name : res str :=
               do v <- get desc (k + off);
               match errs with
               | None => do l <- PrintToString (par_text g [] (lit name) v); Ok (l ++ NL)
               | Some es => do e <- get es (k + off); do l <- PrintToString (par_text_err g g5 [] (lit name) v e); Ok (l ++ NL)
               end in
             let xy k name : res str :=
               do v <- get desc (k + off);
               match errs with
               | None => PrintToString (xy_line f4 [] (lit name) v)
               | Some es => do e <- get es (k + off); PrintToString (xy_line_err f4 [] (lit name) v e)
               end in
             do l0 <- par 0 "PIXEL_SCALE"%string;
             do l1 <- par 1 "IMAGE_PA"%string;
             do l2 <- par 2 "FLUX_SCALE"%string;
             do l3 <- xy 3 "X0"%string;
             do l4 <- xy 4 "Y0"%string;
             Ok (s ++ [l0; l1; l2; l3; l4])) (desc_ents (texts [v0; v1; v2; v3; v4])).
Proof.
  intros G0 G1 G2 G3 G4 HF He. inversion HF as [|? ? F0 HF0]; subst. inversion HF0 as [|? ? F1 HF1]; subst. inversion HF1 as [|? ? F2 HF2]; subst.
  inversion HF2 as [|? ? F3 HF3]; subst. inversion HF3 as [|? ? F4 HF4]; subst. clear HF HF0 HF1 HF2 HF3 HF4.
  cbv beta zeta. rewrite G0, G1, G2, G3, G4. cbn [bind].
  destruct errs as [es|].
  - specialize (He es eq_refl).
    destruct (@get_lt _ es (0 + off)) as (e0 & Q0); [lia|]. destruct (@get_lt _ es (1 + off)) as (e1 & Q1); [lia|].
    destruct (@get_lt _ es (2 + off)) as (e2 & Q2); [lia|]. destruct (@get_lt _ es (3 + off)) as (e3 & Q3); [lia|].
    destruct (@get_lt _ es (4 + off)) as (e4 & Q4); [lia|].
    rewrite Q0, Q1, Q2, Q3, Q4. cbn [bind].
    destruct (@par_err "PIXEL_SCALE" v0 e0) as (l0 & P0 & L0); auto. destruct (@par_err "IMAGE_PA" v1 e1) as (l1 & P1 & L1); auto.
    destruct (@par_err "FLUX_SCALE" v2 e2) as (l2 & P2 & L2); auto. destruct (@xy_err "X0" v3 e3) as (l3 & P3 & L3); auto.
    destruct (@xy_err "Y0" v4 e4) as (l4 & P4 & L4); auto.
    exists (five [l0] [l1] [l2] [l3] [l4]). split; [intros s; rewrite P0, P1, P2, P3, P4; reflexivity|].
    exact (Lns_app L0 (Lns_app L1 (Lns_app L2 (Lns_app L3 L4)))).
  - destruct (@par_none "PIXEL_SCALE" v0) as (l0 & P0 & L0); auto. destruct (@par_none "IMAGE_PA" v1) as (l1 & P1 & L1); auto.
    destruct (@par_none "FLUX_SCALE" v2) as (l2 & P2 & L2); auto. destruct (@xy_none "X0" v3) as (l3 & P3 & L3); auto.
    destruct (@xy_none "Y0" v4) as (l4 & P4 & L4); auto.
    exists (five [l0] [l1] [l2] [l3] [l4]). split; [intros s; rewrite P0, P1, P2, P3, P4; reflexivity|].
    exact (Lns_app L0 (Lns_app L1 (Lns_app L2 (Lns_app L3 L4)))).
Qed.

(** ---- one image ---- *)
Lemma Step_bind r es (k : list str -> res (list str)) es' : Step r es -> Step k es' -> Step (fun s => do s <- r s; k s) (es ++ es').
Proof.
  intros (s1 & E1 & L1) (s2 & E2 & L2). exists (s1 ++ s2). split.
  - intros s. rewrite E1. cbn [bind]. rewrite E2. now rewrite app_assoc.
  - rewrite map_app. now apply Lns_app.
Qed.
Definition vals_at (desc : list T) (off : nat) (vs : list T) : Prop :=
  List.length vs = 5 /\ forall k, k < 5 -> nth_error desc (k + off) = nth_error vs k.
Lemma single_ok im ref desc off errs vs : Savable finite im ->
  (ref = true /\ vs = [] \/ ref = false /\ vals_at desc off vs /\ Forall finite vs /\ (forall es, errs = Some es -> off + 5 <= List.length es)) ->
  exists ss, (forall s, PrintSingleImageInfoToStrings N f4 g g5 dec im s ref desc off errs = Ok (s ++ ss)) /\
    Lns (img_lines (mkImg (info_ents im (texts vs)) None)) ss.
Proof.
  intros HS Hv. destruct HS as [S1 S2 S3 S4 S5 S6 S7 S8 S9 S10 S11 (S12 & S13 & S14)].
  destruct (@put_name_ok "DATA" (i_dataFile im)) as (s1 & E1 & L1); auto.
  destruct (@put_num_ok "ORIGINAL_SKY" (i_originalSky im) (nofZ N 0)) as (s2 & E2 & L2); auto.
  destruct (@put_num_ok "GAIN" (i_gain im) (nofZ N 1)) as (s3 & E3 & L3); auto.
  destruct (@put_num_ok "READNOISE" (i_readNoise im) (nofZ N 0)) as (s4 & E4 & L4); auto.
  destruct (@put_name_ok "MASK" (i_maskFile im)) as (s5 & E5 & L5); auto.
  destruct (@put_name_ok "ERROR" (i_errorFile im)) as (s6 & E6 & L6); auto.
  destruct (@put_name_ok "PSF" (i_psfFile im)) as (s7 & E7 & L7); auto.
  destruct (@over_ok (i_overFiles im) (i_overScales im) (i_overRegions im)) as (s8 & E8 & L8); auto.
  assert (HD : exists s9, (forall s, (if ref then Ok s
           else
             let par k name : res str :=
               do v <- get desc (k + off);
               match errs with
               | None => do l <- PrintToString (par_text g [] (lit name) v); Ok (l ++ NL)
               | Some es => do e <- get es (k + off); do l <- PrintToString (par_text_err g g5 [] (lit name) v e); Ok (l ++ NL)
               end in
             let xy k name : res str :=
               do v <- get desc (k + off);
               match errs with
               | None => PrintToString (xy_line f4 [] (lit name) v)
               | Some es => do e <- get es (k + off); PrintToString (xy_line_err f4 [] (lit name) v e)
               end in
             do l0 <- par 0 "PIXEL_SCALE"%string;
             do l1 <- par 1 "IMAGE_PA"%string;
             do l2 <- par 2 "FLUX_SCALE"%string;
             do l3 <- xy 3 "X0"%string;
             do l4 <- xy 4 "Y0"%string;
             Ok (s ++ [l0; l1; l2; l3; l4])) = Ok (s ++ s9)) /\ Lns (map IEntry (desc_ents (texts vs))) s9).
  { destruct Hv as [(-> & ->)|(-> & (HL & Hn) & HF & He)].
    - exists []. split; [intros; now rewrite app_nil_r|apply Lns_nil].
    - do 6 (destruct vs as [|? vs]; [try discriminate|]); try discriminate.
      apply (@desc_ok desc off errs); auto; unfold get; rewrite Hn by lia; reflexivity. }
  destruct HD as (s9 & E9 & L9).
  cbv beta zeta in E1, E2, E3, E4, E5, E6, E7, E8, E9.
  exists ([lit "IMAGE_START" ++ NL] ++ (s1 ++ s2 ++ s3 ++ s4 ++ s5 ++ s6 ++ s7 ++ s8 ++ s9) ++ [NL]). split.
  - intros s. unfold PrintSingleImageInfoToStrings. cbv beta zeta. rewrite S1. change (1 =? 1)%Z with true. cbv iota.
    rewrite E1. cbn [bind]. rewrite E2. cbn [bind]. rewrite E3. cbn [bind]. rewrite E4. cbn [bind]. rewrite E5. cbn [bind].
    rewrite E6. cbn [bind]. rewrite E7. cbn [bind]. rewrite E8. cbn [bind]. rewrite E9. cbn [bind].
    rewrite <- !(@app_assoc str). reflexivity.
  - unfold img_lines. cbn [im_entries im_funcs]. rewrite app_nil_r.
    change (IStart :: map IEntry (info_ents im (texts vs))) with ([IStart] ++ map IEntry (info_ents im (texts vs))).
    apply Lns_app; [exact Lns_start|]. rewrite <- (app_nil_r (map IEntry _)). apply Lns_app; [|exact Lns_blank].
    unfold info_ents. rewrite !map_app. repeat apply Lns_app; auto.
Qed.

(** ---- what the entries say ---- *)
Lemma last_app {A} (d : A) f a b : last_said d f (a ++ b) = last_said (last_said d f a) f b.
Proof. apply fold_left_app. Qed.
Lemma last_skip {A} (d : A) f k o : (forall v, f (EPlain (lit k) v LNone) = None) -> last_said d f (ent k o) = d.
Proof. intros H. destruct o; cbn [ent]; auto. unfold last_said. cbn [fold_left]. now rewrite H. Qed.
Lemma last_hit {A} (d : A) f k o h : (forall v, f (EPlain (lit k) v LNone) = Some (h v)) ->
  last_said d f (ent k o) = match o with None => d | Some v => h v end.
Proof. intros H. destruct o; cbn [ent]; auto. unfold last_said. cbn [fold_left]. now rewrite H. Qed.
Lemma last_over {A} (d : A) f fs ss rs : (forall v, f (EPlain (lit "OVERSAMPLED_PSF") v LNone) = None) ->
  (forall v, f (EPlain (lit "OVERSAMPLE_SCALE") v LNone) = None) -> (forall v, f (EPlain (lit "OVERSAMPLED_REGION") v LNone) = None) ->
  last_said d f (overs dec fs ss rs) = d.
Proof.
  intros H1 H2 H3. unfold overs. generalize (seq 0 (List.length rs)). intros l. induction l as [|i l IH]; auto.
  cbn [flat_map]. rewrite last_app, <- IH. f_equal. rewrite IH. unfold over_at.
  destruct (nth_error fs i), (nth_error ss i), (nth_error rs i); cbn [app]; unfold last_said; cbn [fold_left]; rewrite ?H1, ?H2, ?H3; reflexivity.
Qed.
Lemma all_app {A} (f : ientry -> option A) a b : all_said f (a ++ b) = all_said f a ++ all_said f b.
Proof. apply flat_map_app. Qed.
Lemma all_skip {A} (f : ientry -> option A) k o : (forall v, f (EPlain (lit k) v LNone) = None) -> all_said f (ent k o) = [].
Proof. intros H. destruct o; cbn [ent]; auto. unfold all_said. cbn [flat_map]. now rewrite H. Qed.
Lemma all_hit {A} (f : ientry -> option A) k v h : (forall v, f (EPlain (lit k) v LNone) = Some (h v)) -> all_said f (ent k (Some v)) = [h v].
Proof. intros H. cbn [ent]. unfold all_said. cbn [flat_map]. now rewrite H. Qed.
Lemma all_over {A} (f : ientry -> option A) fs ss rs (P S Q : text -> option A) :
  (forall v, f (EPlain (lit "OVERSAMPLED_PSF") v LNone) = P v) ->
  (forall v, f (EPlain (lit "OVERSAMPLE_SCALE") v LNone) = S v) -> (forall v, f (EPlain (lit "OVERSAMPLED_REGION") v LNone) = Q v) ->
  all_said f (overs dec fs ss rs) = flat_map (fun i =>
    match nth_error fs i, nth_error ss i with
    | Some x, Some z => match P x with Some a => [a] | None => [] end ++ match S (dec (Z.to_nat z)) with Some a => [a] | None => [] end
    | _, _ => []
    end ++ match nth_error rs i with Some r => match Q r with Some a => [a] | None => [] end | None => [] end) (seq 0 (List.length rs)).
Proof.
  intros H1 H2 H3. unfold overs. generalize (seq 0 (List.length rs)). intros l. induction l as [|i l IH]; auto.
  cbn [flat_map]. rewrite all_app, IH. f_equal. unfold over_at.
  destruct (nth_error fs i), (nth_error ss i), (nth_error rs i); cbn [app]; unfold all_said; cbn [flat_map]; rewrite ?H1, ?H2, ?H3;
    rewrite <- ?app_assoc, ?app_nil_r; reflexivity.
Qed.
Lemma flat_map_none {A B} (l : list A) : flat_map (fun _ => @nil B) l = []. Proof. induction l; auto. Qed.
Lemma seq_nth {A} (l : list A) : forall n k, List.length l <= n ->
  flat_map (fun i => match nth_error l (i - k) with Some x => [x] | None => [] end) (seq k n) = l.
Proof.
  induction l as [|x l IH]; intros n k Hn.
  - erewrite flat_map_ext; [apply flat_map_none|]. intros i. destruct (i - k); reflexivity.
  - destruct n as [|n]; [cbn in Hn; lia|]. cbn [seq flat_map]. rewrite Nat.sub_diag. cbn [nth_error app]. f_equal.
    etransitivity; [|apply (IH n (S k)); cbn in Hn; lia]. rewrite !flat_map_concat_map. f_equal. apply map_ext_in.
    intros i Hi. apply in_seq in Hi. replace (i - k) with (S (i - S k)) by lia. reflexivity.
Qed.
Lemma seq_nth0 {A} (l : list A) n : List.length l <= n -> flat_map (fun i => match nth_error l i with Some x => [x] | None => [] end) (seq 0 n) = l.
Proof. intros H. etransitivity; [|apply (@seq_nth A l n 0 H)]. apply flat_map_ext. intros i. now rewrite Nat.sub_0_r. Qed.

Section Back.
Variable im : ImageInfo T.
Hypothesis HS : Savable finite im.
Variable d : list text.
Notation es := (info_ents im d).
Ltac skips := repeat first [rewrite last_app | rewrite last_skip by (intros; reflexivity) | rewrite last_over by (intros; reflexivity)].
Ltac dsk := unfold desc_ents; destruct d as [|? [|? [|? [|? [|? [|? ?]]]]]]; try reflexivity; skips; try reflexivity.
Lemma scale_read z : Int z -> strtol (dec (Z.to_nat z)) = z.
Proof.
  intros Hz. unfold Int in *. destruct HI as [A B]. destruct (A (Z.to_nat z)) as (D & _ & Z0); [unfold Int; lia|].
  rewrite (B (dec (Z.to_nat z)) (Z.of_nat (Z.to_nat z))); auto; unfold Int; lia.
Qed.
Lemma overs_back : all_said (value_of "OVERSAMPLED_PSF") es = i_overFiles im /\
  all_said (int strtol "OVERSAMPLE_SCALE") es = i_overScales im /\ all_said (value_of "OVERSAMPLED_REGION") es = i_overRegions im.
Proof.
  destruct HS as [_ _ _ _ _ _ _ _ _ _ S11 (S12 & S13 & S14)]. unfold info_ents.
  assert (D : forall A (f : ientry -> option A), (forall v, f (EPlain (lit "PIXEL_SCALE") v LNone) = None) -> (forall v, f (EPlain (lit "IMAGE_PA") v LNone) = None) ->
     (forall v, f (EPlain (lit "FLUX_SCALE") v LNone) = None) -> (forall v, f (EPlain (lit "X0") v LNone) = None) -> (forall v, f (EPlain (lit "Y0") v LNone) = None) ->
     all_said f (desc_ents d) = []).
  { intros A f H1 H2 H3 H4 H5. unfold desc_ents. destruct d as [|? [|? [|? [|? [|? [|? ?]]]]]]; try reflexivity.
    rewrite !all_app, !all_skip; auto. }
  split; [|split]; rewrite !all_app; repeat rewrite all_skip by (intros; reflexivity); rewrite D by (intros; reflexivity); rewrite app_nil_r; cbn [app].
  - rewrite (@all_over _ _ _ _ _ (fun v => Some v) (fun _ => None) (fun _ => None)) by (intros; reflexivity).
    etransitivity; [|apply (@seq_nth0 _ (i_overFiles im) (List.length (i_overRegions im))); lia]. apply flat_map_ext. intros i.
    destruct (nth_error (i_overFiles im) i) eqn:E1.
    + destruct (nth_error (i_overScales im) i) eqn:E2; [destruct (nth_error (i_overRegions im) i); reflexivity|].
      apply nth_error_None in E2. assert (i < List.length (i_overFiles im)) by (apply nth_error_Some; congruence). lia.
    + destruct (nth_error (i_overRegions im) i); reflexivity.
  - rewrite (@all_over _ _ _ _ _ (fun _ => None) (fun v => Some (strtol v)) (fun _ => None)) by (intros; reflexivity).
    etransitivity; [|apply (@seq_nth0 _ (i_overScales im) (List.length (i_overRegions im))); lia]. apply flat_map_ext. intros i.
    destruct (nth_error (i_overScales im) i) as [z|] eqn:E1.
    + destruct (nth_error (i_overFiles im) i) eqn:E2.
      * rewrite scale_read by (rewrite Forall_forall in S11; apply S11; eapply nth_error_In; eauto).
        destruct (nth_error (i_overRegions im) i); reflexivity.
      * apply nth_error_None in E2. assert (i < List.length (i_overScales im)) by (apply nth_error_Some; congruence). lia.
    + destruct (nth_error (i_overFiles im) i), (nth_error (i_overRegions im) i); reflexivity.
  - rewrite (@all_over _ _ _ _ _ (fun _ => None) (fun _ => None) (fun v => Some v)) by (intros; reflexivity).
    etransitivity; [|apply (@seq_nth0 _ (i_overRegions im) (List.length (i_overRegions im))); lia]. apply flat_map_ext. intros i.
    destruct (nth_error (i_overFiles im) i), (nth_error (i_overScales im) i), (nth_error (i_overRegions im) i); reflexivity.
Qed.
Lemma again v : finite v -> Rounded toR strtod (strtod (g v)) (v, false).
Proof. intros H. destruct (num_word H) as (r & D & E & _). exists (g v), r. auto. Qed.
Lemma again4 v : finite v -> Rounded toR strtod (strtod (f4 v)) (v, true).
Proof. intros H. destruct (f4_value _ _ _ _ _ _ HP v H) as (r & D & E). exists (f4 v), r. auto. Qed.
Lemma back_data : SameData N toR strtod im (described N strtod strtol es).
Proof.
  pose proof HS as [_ _ _ _ _ S6 S7 S8 _ _ _ _]. destruct overs_back as (O1 & O2 & O3).
  unfold described. constructor; cbn [i_dataFile i_maskFile i_errorFile i_psfFile i_originalSky i_gain i_readNoise i_overFiles i_overScales i_overRegions]; auto; unfold info_ents.
  - skips. rewrite (@last_hit _ _ _ "DATA" _ (fun v => Some v)) by (intros; reflexivity). dsk; now destruct (i_dataFile im).
  - skips. rewrite (@last_hit _ _ _ "MASK" _ (fun v => Some v)) by (intros; reflexivity). dsk; now destruct (i_maskFile im).
  - skips. rewrite (@last_hit _ _ _ "ERROR" _ (fun v => Some v)) by (intros; reflexivity). dsk; now destruct (i_errorFile im).
  - skips. rewrite (@last_hit _ _ _ "PSF" _ (fun v => Some v)) by (intros; reflexivity). dsk; now destruct (i_psfFile im).
  - skips. rewrite (@last_hit _ _ _ "ORIGINAL_SKY" _ (fun v => strtod v)) by (intros; reflexivity).
    match goal with |- Again _ _ _ _ _ ?x => assert (E : x = match unless (neqb N (i_originalSky im) (nofZ N 0)) (g (i_originalSky im)) with Some v => strtod v | None => nofZ N 0 end) by dsk end.
    rewrite E. unfold Again, unless. destruct (neqb N (i_originalSky im) (nofZ N 0)); auto using again.
  - skips. rewrite (@last_hit _ _ _ "GAIN" _ (fun v => strtod v)) by (intros; reflexivity).
    match goal with |- Again _ _ _ _ _ ?x => assert (E : x = match unless (neqb N (i_gain im) (nofZ N 1)) (g (i_gain im)) with Some v => strtod v | None => nofZ N 1 end) by dsk end.
    rewrite E. unfold Again, unless. destruct (neqb N (i_gain im) (nofZ N 1)); auto using again.
  - skips. rewrite (@last_hit _ _ _ "READNOISE" _ (fun v => strtod v)) by (intros; reflexivity).
    match goal with |- Again _ _ _ _ _ ?x => assert (E : x = match unless (neqb N (i_readNoise im) (nofZ N 0)) (g (i_readNoise im)) with Some v => strtod v | None => nofZ N 0 end) by dsk end.
    rewrite E. unfold Again, unless. destruct (neqb N (i_readNoise im) (nofZ N 0)); auto using again.
Qed.
Lemma back_rest : RestDefault N (described N strtod strtol es).
Proof.
  unfold described. constructor; cbn [i_weight i_expTime i_nCombined i_maskBadIsZero i_errorType i_nColumns i_nRows i_perImage]; unfold info_ents; auto; [..|split]; skips; dsk.
Qed.
End Back.
Ltac skips := repeat first [rewrite last_app | rewrite last_skip by (intros; reflexivity) | rewrite last_over by (intros; reflexivity)].
Lemma back_ref im : RefDescription N (described N strtod strtol (info_ents im [])).
Proof.
  unfold described. constructor; cbn [i_pixelScale i_rotation i_intensityScale i_x0 i_y0 i_pixelScaleLim i_rotationLim i_intensityScaleLim i_x0Lim i_y0Lim];
    unfold info_ents; cbn [desc_ents]; rewrite app_nil_r; skips; reflexivity.
Qed.
Lemma back_values im vs : List.length vs = 5 -> Forall finite vs -> HasValues N toR strtod vs (described N strtod strtol (info_ents im (texts vs))).
Proof.
  intros HL HF. do 6 (destruct vs as [|? vs]; [try discriminate|]); try discriminate. clear HL.
  unfold described. constructor; cbn [i_pixelScale i_rotation i_intensityScale i_x0 i_y0 i_pixelScaleLim i_rotationLim i_intensityScaleLim i_x0Lim i_y0Lim];
    unfold info_ents; cbn [texts desc_ents]; skips.
  - inversion HF as [|? ? F0 HF0]; subst. inversion HF0 as [|? ? F1 HF1]; subst. inversion HF1 as [|? ? F2 HF2]; subst.
    inversion HF2 as [|? ? F3 HF3]; subst. inversion HF3 as [|? ? F4 HF4]; subst. cbn [combine].
    repeat rewrite (@last_hit _ _ _ "PIXEL_SCALE" _ (fun v => strtod v)) by (intros; reflexivity).
    repeat rewrite (@last_hit _ _ _ "IMAGE_PA" _ (fun v => strtod v)) by (intros; reflexivity).
    repeat rewrite (@last_hit _ _ _ "FLUX_SCALE" _ (fun v => strtod v)) by (intros; reflexivity).
    repeat rewrite (@last_hit _ _ _ "X0" _ (fun v => strtod v)) by (intros; reflexivity).
    repeat rewrite (@last_hit _ _ _ "Y0" _ (fun v => strtod v)) by (intros; reflexivity).
    skips.
    repeat (apply Forall2_cons; [first [now apply again | now apply again4]|]). constructor.
  - repeat rewrite (@last_hit _ _ _ "PIXEL_SCALE" _ (fun _ => fixed_ N)) by (intros; reflexivity).
    repeat rewrite (@last_hit _ _ _ "IMAGE_PA" _ (fun _ => fixed_ N)) by (intros; reflexivity).
    repeat rewrite (@last_hit _ _ _ "FLUX_SCALE" _ (fun _ => free N)) by (intros; reflexivity).
    repeat rewrite (@last_hit _ _ _ "X0" _ (fun _ => free N)) by (intros; reflexivity).
    repeat rewrite (@last_hit _ _ _ "Y0" _ (fun _ => free N)) by (intros; reflexivity).
    skips. reflexivity.
Qed.

Definition Plain_ (e : ientry) : Prop := exists k v, e = EPlain (lit k) v LNone /\ keyb k = true /\ lit k <> lit "NCOLS,NROWS" /\ lit k <> lit "NROWS,NCOLS".
Lemma plain_ent k o : keyb k = true -> lit k <> lit "NCOLS,NROWS" -> lit k <> lit "NROWS,NCOLS" -> Forall Plain_ (ent k o).
Proof. intros H1 H2 H3. destruct o as [v|]; constructor; [|constructor]. exists k, v. auto. Qed.
Lemma plain_all im d : Forall Plain_ (info_ents im d).
Proof.
  unfold info_ents. repeat (apply Forall_app; split); try (apply plain_ent; [reflexivity|discriminate|discriminate]).
  - unfold overs. generalize (seq 0 (List.length (i_overRegions im))). intros l. induction l as [|i l IH]; [constructor|].
    cbn [flat_map]. apply Forall_app. split; auto. unfold over_at. apply Forall_app. split.
    + destruct (nth_error (i_overFiles im) i), (nth_error (i_overScales im) i); repeat constructor; eexists _, _; (split; [reflexivity|]); (split; [reflexivity|split; discriminate]).
    + destruct (nth_error (i_overRegions im) i); repeat constructor; eexists _, _; (split; [reflexivity|]); (split; [reflexivity|split; discriminate]).
  - unfold desc_ents. destruct d as [|? [|? [|? [|? [|? [|? ?]]]]]]; try exact (Forall_nil _).
    repeat (apply Forall_app; split); try (apply plain_ent; [reflexivity|discriminate|discriminate]).
Qed.
Lemma once_ok im d k : k = "PIXEL_SCALE"%string \/ k = "IMAGE_PA"%string -> once k (info_ents im d).
Proof.
  intros Hk. unfold once, info_ents. rewrite !all_app.
  assert (Z : forall f, (forall v, f (EPlain (lit "OVERSAMPLED_PSF") v LNone) = @None text) -> (forall v, f (EPlain (lit "OVERSAMPLE_SCALE") v LNone) = None) ->
     (forall v, f (EPlain (lit "OVERSAMPLED_REGION") v LNone) = None) -> all_said f (overs dec (i_overFiles im) (i_overScales im) (i_overRegions im)) = []).
  { intros f H1 H2 H3. rewrite (@all_over _ f _ _ _ (fun _ => None) (fun _ => None) (fun _ => None)) by auto.
    erewrite flat_map_ext; [apply flat_map_none|]. intros i. cbn beta.
    destruct (nth_error (i_overFiles im) i), (nth_error (i_overScales im) i), (nth_error (i_overRegions im) i); reflexivity. }
  destruct Hk as [-> | ->]; repeat rewrite all_skip by (intros; reflexivity); rewrite Z by (intros; reflexivity); cbn [app];
    unfold desc_ents; destruct d as [|? [|? [|? [|? [|? [|? ?]]]]]]; cbn; auto.
Qed.
Lemma good_img im d : GoodImg N strtod (mkImg (info_ents im d) None).
Proof.
  split; [|split; [apply once_ok; auto|split; [apply once_ok; auto|exact I]]].
  cbn [im_entries]. eapply Forall_impl; [|apply plain_all]. intros e (k & v & -> & _ & H1 & H2).
  split; [split; [reflexivity|exact I]|]. split; auto.
Qed.

(** ---- the file ---- *)
Lemma Comment_lit s : OneLine (lit s) -> (exists r, lit s = ascii_of_nat 35 :: r) -> Lns [] [lit s ++ NL].
Proof. intros H (r & E). apply Lns_skip; auto. exists [], (lit s). repeat split; auto. right. eauto. Qed.
Definition img_at (params : list T) (k : nat) (im : ImageInfo T) : img_ :=
  mkImg (info_ents im (texts (match k with 0 => [] | S k => firstn 5 (skipn (5 * k) params) end))) None.
Lemma nth_firstn {A} (l : list A) : forall n k, k < n -> nth_error (firstn n l) k = nth_error l k.
Proof. induction l as [|x l IH]; intros [|n] [|k] H; cbn; auto; try lia. apply IH. lia. Qed.
Lemma nth_firstn_skipn {A} (l : list A) o n k : k < n -> nth_error (firstn n (skipn o l)) k = nth_error l (k + o).
Proof.
  intros H. rewrite nth_firstn by auto. clear H. revert l. induction o as [|o IH]; intros l; [now rewrite Nat.add_0_r|].
  destruct l; [destruct k; reflexivity|]. cbn [skipn]. rewrite IH. now rewrite Nat.add_succ_r.
Qed.

Lemma desc_list (params : list T) n : 0 < n -> (n - 1) * N_IMAGE_PARAMS <= List.length params ->
  for_ ((n - 1) * N_IMAGE_PARAMS) (fun i d => do x <- get params i; set d i x) (repeat (nofZ N 0) (n * N_IMAGE_PARAMS)) =
  Ok (firstn ((n - 1) * N_IMAGE_PARAMS) params ++ repeat (nofZ N 0) N_IMAGE_PARAMS).
Proof.
  intros Hn HL. set (m := (n - 1) * N_IMAGE_PARAMS) in *.
  assert (E : n * N_IMAGE_PARAMS = m + N_IMAGE_PARAMS). { unfold m. destruct n; [lia|]. replace (S n - 1) with n by lia. lia. }
  rewrite E, repeat_app.
  assert (Lf : List.length (firstn m params) = m) by (rewrite firstn_length; lia).
  pose proof (@fill00 T (firstn m params) (repeat (nofZ N 0) m) (repeat (nofZ N 0) N_IMAGE_PARAMS)) as H.
  rewrite repeat_length, Lf in H. rewrite <- (H eq_refl). apply for_ext. intros i d Hi. unfold get. now rewrite nth_firstn.
Qed.
Definition Handled (infos : list (ImageInfo T)) (params : list T) (errs : option (list T)) : Prop :=
  infos <> [] /\ Forall (Savable finite) infos /\
  5 * (List.length infos - 1) <= List.length params /\ Forall finite (firstn (5 * (List.length infos - 1)) params) /\
  (forall es, errs = Some es -> 5 * (List.length infos - 1) <= List.length es).

Lemma save_info j infos params errs header : List.length (j_images j) = List.length infos -> Handled infos params errs -> Forall Comment header ->
  exists txt ims, SaveImageInfoParameters N f4 g g5 dec j infos params errs header = Ok txt /\
    FileSaysI (flat_map img_lines ims) (file_lines txt) /\ List.length ims = List.length infos /\
    forall k im, nth_error infos k = Some im -> nth_error ims k = Some (img_at params k im).
Proof.
  intros Hj (Hne & HS & HL & HF & He) Hh. unfold SaveImageInfoParameters. cbv zeta. rewrite Hj.
  set (n := List.length infos) in *. assert (Hn : 0 < n) by (unfold n; destruct infos; [congruence|cbn; lia]).
  change N_IMAGE_PARAMS with 5 in *. rewrite (Nat.mul_comm 5 (n - 1)) in HL, HF, He.
  pose proof (desc_list Hn HL) as ED. change N_IMAGE_PARAMS with 5 in ED. rewrite ED. cbn [bind]. set (desc := firstn ((n - 1) * 5) params ++ repeat (nofZ N 0) 5).
  assert (HE : exists derrs, (match errs with None => Ok None | Some e => do d <- for_ ((n - 1) * 5) (fun i d => do x <- get e i; set d i x) (repeat (nofZ N 0) (n * 5)); Ok (Some d) end) = Ok derrs /\
     forall es, derrs = Some es -> (n - 1) * 5 + 5 <= List.length es).
  { destruct errs as [e|]; [|exists None; split; auto; discriminate].
    specialize (He e eq_refl). pose proof (desc_list Hn He) as EE. change N_IMAGE_PARAMS with 5 in EE. rewrite EE. cbn [bind]. eexists. split; [reflexivity|].
    intros es E. inversion E; subst. rewrite app_length, firstn_length. cbn [List.length]. lia. }
  destruct HE as (derrs & E2 & Hd). rewrite E2. cbn [bind].
  match goal with |- context [for_ n ?F []] =>
    destruct (@for_inv (list str) (fun i s => exists ims, Lns (flat_map img_lines ims) s /\ List.length ims = i /\
       forall k im, k < i -> nth_error infos k = Some im -> nth_error ims k = Some (img_at params k im)) F n []) as (ss & E3 & (ims & HLn & Hlen & Hims)) end.
  { exists []. repeat split; [apply Lns_nil|]. intros k im H. lia. }
  { intros i s Hi (ims & HLn & Hlen & Hims).
    destruct (nth_error infos i) as [im|] eqn:Ei; [|apply nth_error_None in Ei; unfold n in Hi; lia].
    assert (Si : Savable finite im) by (rewrite Forall_forall in HS; apply HS; eapply nth_error_In; eauto).
    assert (HC : exists h, (if i =? 0 then s ++ [lit "# Reference image" ++ NL] else if i =? 1 then s ++ [lit "# Additional images" ++ NL] else s) = s ++ h /\ Lns [] h).
    { destruct (i =? 0); [exists [lit "# Reference image" ++ NL]; split; auto; apply Comment_lit; [apply oneline_true; reflexivity|eexists; reflexivity]|].
      destruct (i =? 1); [exists [lit "# Additional images" ++ NL]; split; auto; apply Comment_lit; [apply oneline_true; reflexivity|eexists; reflexivity]|].
      exists []. split; [now rewrite app_nil_r|apply Lns_nil]. }
    destruct HC as (h & Eh & Lh).
    destruct (@single_ok im (i =? 0) desc ((i - 1) * 5) derrs (match i with 0 => [] | S k => firstn 5 (skipn (5 * k) params) end)) as (ss & Es & Ls); auto.
    { destruct i as [|k]; [left; auto|right]. split; [reflexivity|]. replace (S k - 1) with k by lia.
      assert (Lk : k * 5 + 5 <= (n - 1) * 5) by lia. split; [|split].
      - split; [rewrite firstn_length, skipn_length; lia|]. intros q Hq. unfold desc.
        rewrite nth_error_app1 by (rewrite firstn_length; lia). rewrite nth_firstn by lia. rewrite nth_firstn_skipn by lia. f_equal. lia.
      - apply Forall_forall. intros x Hx. apply In_nth_error in Hx. destruct Hx as (q & Hq).
        assert (Hq5 : q < 5). { assert (q < List.length (firstn 5 (skipn (5 * k) params))) by (apply nth_error_Some; congruence). rewrite firstn_length in H. lia. }
        rewrite nth_firstn_skipn in Hq by auto. rewrite Forall_forall in HF. apply HF. apply (@nth_error_In _ _ (q + 5 * k)). rewrite nth_firstn by lia. exact Hq.
      - intros es Ees. specialize (Hd es Ees). lia. }
    exists ((s ++ h) ++ ss). split.
    - unfold get at 1. rewrite Ei. cbn [bind]. rewrite Eh. apply Es.
    - exists (ims ++ [img_at params i im]). split; [|split].
      + rewrite flat_map_app. cbn [flat_map]. rewrite app_nil_r. apply Lns_app; [|exact Ls].
        rewrite <- (app_nil_r (flat_map _ _)). now apply Lns_app.
      + rewrite app_length. cbn. lia.
      + intros k im' Hk Ek. destruct (Nat.eq_dec k i) as [->|Hki].
        * rewrite Ei in Ek. inversion Ek; subst im'. rewrite nth_error_app2 by lia. now rewrite Hlen, Nat.sub_diag.
        * rewrite nth_error_app1 by lia. apply Hims; auto. lia. }
  rewrite E3. cbn [bind]. eexists _, ims. split; [reflexivity|]. split; [|split; auto].
  2:{ intros k im Ek. apply Hims; auto. unfold n. apply nth_error_Some. congruence. }
  destruct HLn as (bs & -> & Ob & Fb).
  assert (Oh : Forall OneLine header /\ Forall Ignorable header).
  { split; (eapply Forall_impl; [|exact Hh]); intros h Hc; now apply Comment_ign. }
  destruct Oh as [Oh Ih].
  assert (E5 : map c_str (map (fun b => b ++ NL) bs) = map (fun b => b ++ NL) bs).
  { rewrite map_map. apply map_ext_in. intros b Hb. rewrite Forall_forall in Ob. apply c_str_id. apply NoNul_app; [apply OneLine_NoNul; auto|exact NoNul_NL]. }
  assert (E6 : map (fun h => c_str h ++ NL) header = map (fun b => b ++ NL) header).
  { apply map_ext_in. intros b Hb. rewrite Forall_forall in Oh. now rewrite c_str_id by (apply OneLine_NoNul; auto). }
  rewrite E5, E6.
  replace (concat (map (fun b => b ++ NL) header) ++ NL ++ lit "# IMAGE PARAMETERS" ++ NL ++ NL ++ concat (map (fun b => b ++ NL) bs))
    with (concat (map (fun b => b ++ NL) (header ++ [[]; lit "# IMAGE PARAMETERS"; []] ++ bs))).
  2:{ rewrite !map_app, !concat_app. cbn [map concat app]. rewrite ?app_nil_r, <- ?app_assoc. reflexivity. }
  rewrite file_lines_concat.
  - rewrite <- (app_nil_l (flat_map img_lines ims)). apply FileSaysI_app.
    { clear -Ih. induction Ih; constructor; auto. }
    rewrite <- (app_nil_l (flat_map img_lines ims)). apply FileSaysI_app; auto.
    apply FI_skip; [exists [], []; repeat split; auto|]. apply FI_skip; [exists [], (lit "# IMAGE PARAMETERS"); repeat split; auto; right; eexists; reflexivity|].
    apply FI_skip; [exists [], []; repeat split; auto|]. constructor.
  - apply Forall_app. split; auto. apply Forall_app. split; auto. constructor; [constructor|]. constructor; [apply oneline_true; reflexivity|]. constructor; constructor.
Qed.

Lemma saved_info j infos params errs header isn junk opt :
  List.length (j_images j) = List.length infos -> Handled infos params errs -> Forall Comment header ->
  exists txt infos' opt', SaveImageInfoParameters N f4 g g5 dec j infos params errs header = Ok txt /\
    ReadImageParamsFile N strtod strtol isn junk (file_lines txt) opt = Ok (0%Z, Some (List.length infos, infos'), [], opt') /\
    InfoBack N toR strtod infos params infos'.
Proof.
  intros Hj HH Hh. destruct (save_info Hj HH Hh) as (txt & ims & E & HFS & HLen & Hims).
  pose proof HH as (Hne & HS & HL & HF & He).
  destruct (@read_file T N strtod strtol isn junk (file_lines txt) ims opt) as (infos' & opt' & ER & HD); auto.
  - intros ->. destruct infos; [congruence|discriminate].
  - apply Forall_forall. intros im Him. apply In_nth_error in Him. destruct Him as (k & Hk).
    assert (k < List.length infos) by (rewrite <- HLen; apply nth_error_Some; congruence).
    destruct (nth_error infos k) as [i|] eqn:Ek; [|apply nth_error_None in Ek; lia].
    rewrite (Hims k i Ek) in Hk. inversion Hk. apply good_img.
  - exists txt, infos', opt'. rewrite HLen in ER. split; auto. split; auto. split.
    + rewrite <- HLen. symmetry. eapply Forall2_length; eauto.
    + intros k im im' Ek Ek'. assert (HDk : Describes N strtod strtol (img_at params k im) im').
      { specialize (Hims k im Ek). clear -HD Hims Ek'. revert Hims. generalize (img_at params k im). intros X Hims. revert k Hims Ek'. induction HD; intros [|k] H1 H2; cbn [nth_error] in *; try discriminate; [injection H1 as H1; injection H2 as H2; subst; assumption|eauto]. }
      unfold Describes in HDk. cbn [img_at im_funcs im_entries] in HDk. subst im'.
      assert (Sk : Savable finite im) by (rewrite Forall_forall in HS; apply HS; eapply nth_error_In; eauto).
      split; [now apply back_data|]. split; [now apply back_rest|].
      assert (Hk : k < List.length infos) by (apply nth_error_Some; congruence).
      destruct k as [|k]; [apply back_ref|]. apply back_values.
      * rewrite firstn_length, skipn_length. lia.
      * apply Forall_forall. intros x Hx. apply In_nth_error in Hx. destruct Hx as (q & Hq).
        assert (Hq5 : q < 5). { assert (q < List.length (firstn 5 (skipn (5 * k) params))) by (apply nth_error_Some; congruence). rewrite firstn_length in H. lia. }
        rewrite nth_firstn_skipn in Hq by auto. rewrite Forall_forall in HF. apply HF. apply (@nth_error_In _ _ (q + 5 * k)). rewrite nth_firstn by lia. exact Hq.
Qed.
End Save.

(** ---- what goes wrong ---- *)
Lemma bind_ok {A B} (r : res A) (k : A -> res B) b : bind r k = Ok b -> exists a, r = Ok a /\ k a = Ok b.
Proof. destruct r; cbn; try discriminate. eauto. Qed.
Lemma for_from_steps {S} (F : nat -> S -> res S) n : forall k s s', for_from k n F s = Ok s' -> forall i, k <= i < k + n -> exists a b, F i a = Ok b.
Proof.
  induction n as [|n IH]; intros k s s' H i Hi; [lia|]. cbn [for_from] in H. apply bind_ok in H. destruct H as (a & H1 & H2).
  destruct (Nat.eq_dec i k) as [->|Hk]; [eauto|]. apply (IH _ _ _ H2). lia.
Qed.
Section Wrong.
Variable T : Type.
Variable N : Num T.
Variable f4 g g5 : T -> str.
Variable dec : nat -> str.
Lemma single_combined im s ref desc off errs s' : i_nCombined im <> 1%Z -> PrintSingleImageInfoToStrings N f4 g g5 dec im s ref desc off errs <> Ok s'.
Proof.
  intros H. unfold PrintSingleImageInfoToStrings. cbv zeta beta.
  destruct (i_nCombined im =? 1)%Z eqn:E; [apply Z.eqb_eq in E; contradiction|].
  intros K. do 4 (apply bind_ok in K; destruct K as (? & _ & K)). discriminate K.
Qed.
Lemma combined_undefined (j : joint) (infos : list (ImageInfo T)) (params : list T) (errs : option (list T)) (header : list str) :
  List.length (j_images j) = List.length infos -> Exists (fun im => i_nCombined im <> 1%Z) infos ->
  forall txt, SaveImageInfoParameters N f4 g g5 dec j infos params errs header <> Ok txt.
Proof.
  intros HL HE txt K. unfold SaveImageInfoParameters in K. cbv zeta in K.
  do 2 (apply bind_ok in K; destruct K as (? & _ & K)). apply bind_ok in K. destruct K as (ss & K & _).
  apply Exists_exists in HE. destruct HE as (im & Hin & Him). apply In_nth_error in Hin. destruct Hin as (i & Hi).
  assert (i < List.length infos) by (apply nth_error_Some; congruence).
  unfold for_ in K. destruct (for_from_steps K (i := i)) as (a & b & Hab); [lia|].
  unfold get in Hab. rewrite Hi in Hab. cbn [bind] in Hab. exact (single_combined Him Hab).
Qed.
Lemma shift_other i off st st' k : shift_par N i off st = Ok st' -> k <> i -> nth_error (fst st') k = nth_error (fst st) k.
Proof.
  unfold shift_par. intros H Hk. apply bind_ok in H. destruct H as (v & Ev & H). apply bind_ok in H. destruct H as (ps & Ep & H).
  apply bind_ok in H. destruct H as (p & _ & H). apply bind_ok in H. destruct H as (ls & _ & H). inversion H; subst. cbn [fst].
  unfold set in Ep. destruct (i <? List.length (fst st)) eqn:EL; [|discriminate]. inversion Ep; subst. rewrite nth_error_upd.
  destruct (Nat.eqb_spec i k); [congruence|]. reflexivity.
Qed.
Lemma shift_same i off st st' v : shift_par N i off st = Ok st' -> nth_error (fst st) i = Some v -> nth_error (fst st') i = Some (nsub N v (nofZ N off)).
Proof.
  unfold shift_par. intros H Hv. apply bind_ok in H. destruct H as (w & Ev & H). apply bind_ok in H. destruct H as (ps & Ep & H).
  apply bind_ok in H. destruct H as (p & _ & H). apply bind_ok in H. destruct H as (ls & _ & H). inversion H; subst. cbn [fst].
  unfold get in Ev. rewrite Hv in Ev. inversion Ev; subst.
  unfold set in Ep. destruct (i <? List.length (fst st)) eqn:EL; [|discriminate]. inversion Ep; subst. rewrite nth_error_upd, Nat.eqb_refl, EL. reflexivity.
Qed.
Lemma loop_other f n : (forall i st st', f i st = Ok st' -> 5 <= i -> forall k, k < 5 -> nth_error (fst st') k = nth_error (fst st) k) ->
  forall a (st st' : list T * list (mp_par T)), 5 <= a -> for_from a n f st = Ok st' -> forall k, k < 5 -> nth_error (fst st') k = nth_error (fst st) k.
Proof.
  intros Hf. induction n as [|n IH]; intros a st st' Ha H k Hk; cbn [for_from] in H; [inversion H; reflexivity|].
  apply bind_ok in H. destruct H as (s1 & H1 & H2). rewrite (IH (S a) s1 st') by (auto; lia). eapply Hf; eauto.
Qed.
(** after the correction the first centre coordinate of the second image is relative to
    its section *)
Lemma moved_x0 j o0 ox oy v l v' l' x : List.length (j_images j) = 2 -> nth_error v 3 = Some x ->
  CorrectForImageOffsets N j [o0; (ox, oy)] v l = Ok (v', l') -> nth_error v' 3 = Some (nsub N x (nofZ N ox)).
Proof.
  intros HL Hx H. unfold CorrectForImageOffsets in H. rewrite HL in H. cbn [Nat.sub for_from get nth_error bind] in H.
  change (N_IMAGE_PARAMS * 1) with 5 in H. change (1 * N_IMAGE_PARAMS - 2) with 3 in H.
  apply bind_ok in H. destruct H as (s2 & H1 & H2). apply bind_ok in H1. destruct H1 as (s1 & H1 & H1').
  apply bind_ok in H1. destruct H1 as (s0 & H0 & H1). inversion H1'; subst s2. cbn [get nth_error bind fst snd] in *.
  assert (E : nth_error (fst (v', l')) 3 = nth_error (fst s1) 3).
  2:{ cbn [fst] in E |- *. etransitivity; [exact E|]. rewrite (shift_other H1 (k := 3)) by lia. exact (shift_same H0 Hx). }
  refine (loop_other _ (le_n _) H2 _); [|lia]; intros i st st' E Hi k Hk. apply bind_ok in E. destruct E as (nm & _ & E).
    destruct (str_eqb nm (lit "X0")); [apply (shift_other E); lia|].
    destruct (str_eqb nm (lit "Y0")); [apply (shift_other E); lia|]. inversion E. reflexivity.
Qed.
End Wrong.
