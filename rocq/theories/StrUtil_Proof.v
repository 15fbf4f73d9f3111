From Verif Require Import StrUtil_Model StrUtil_Spec.
Local Open Scope list_scope.

Lemma ch_eqb_true a b : ch_eqb a b = true <-> a = b.
Proof. unfold ch_eqb. apply Ascii.eqb_eq. Qed.
Lemma ch_eqb_refl a : ch_eqb a a = true.
Proof. now apply ch_eqb_true. Qed.

Lemma str_eqb_true a b : str_eqb a b = true <-> a = b.
Proof.
  revert b; induction a as [|x a IH]; intros [|y b]; simpl; split; try congruence.
  - rewrite andb_true_iff, ch_eqb_true, IH. intros [-> ->]; auto.
  - intros H; inversion H; subst. rewrite ch_eqb_refl. simpl. now apply IH.
Qed.

Lemma str_eqb_refl a : str_eqb a a = true.
Proof. now apply str_eqb_true. Qed.

Lemma is_in_true d c : is_in d c = true <-> In c d.
Proof.
  unfold is_in. rewrite existsb_exists. split.
  - intros (x & Hx & E). apply ch_eqb_true in E. now subst.
  - intros H. exists c. split; auto. apply ch_eqb_refl.
Qed.
Lemma is_in_false d c : is_in d c = false <-> ~ In c d.
Proof. rewrite <- is_in_true. destruct (is_in d c); split; congruence. Qed.

(** ---- index_of ---- *)
Lemma index_of_None p s : index_of p s = None <-> Forall (fun c => p c = false) s.
Proof.
  induction s as [|c t IH]; simpl; split; intros H; auto.
  - destruct (p c) eqn:E; [congruence|]. constructor; auto. apply IH.
    destruct (index_of p t); simpl in H; congruence.
  - inversion H as [|? ? H1 H2]; subst. rewrite H1. apply IH in H2. now rewrite H2.
Qed.

Lemma index_of_Some p s k : index_of p s = Some k ->
  exists a c b, s = a ++ c :: b /\ length a = k /\ Forall (fun c => p c = false) a /\ p c = true.
Proof.
  revert k; induction s as [|c t IH]; simpl; intros k H; [congruence|].
  destruct (p c) eqn:E.
  - inversion H; subst. exists [], c, t. auto.
  - destruct (index_of p t) as [j|] eqn:Ej; simpl in H; [|congruence].
    inversion H; subst. destruct (IH j eq_refl) as (a & x & b & -> & Hl & Ha & Hx).
    exists (c :: a), x, b. simpl. repeat split; auto.
Qed.

Lemma index_of_app p a c b :
  Forall (fun c => p c = false) a -> p c = true -> index_of p (a ++ c :: b) = Some (length a).
Proof.
  induction a as [|x a IH]; simpl; intros Ha Hc.
  - now rewrite Hc.
  - inversion Ha; subst. rewrite H1, IH; auto.
Qed.

Lemma skipn_app_len {A} (a b : list A) : skipn (length a) (a ++ b) = b.
Proof. rewrite skipn_app, skipn_all, Nat.sub_diag. reflexivity. Qed.
Lemma firstn_app_len {A} (a b : list A) : firstn (length a) (a ++ b) = a.
Proof. rewrite firstn_app, firstn_all, Nat.sub_diag. simpl. apply app_nil_r. Qed.

Lemma find_p_app p a c b pre :
  Forall (fun c => p c = false) a -> p c = true ->
  find_p p (pre ++ a ++ c :: b) (Some (length pre)) = Some (length pre + length a).
Proof. intros Ha Hc. unfold find_p. rewrite skipn_app_len, index_of_app; auto. Qed.

Lemma find_p_none p r pre :
  Forall (fun c => p c = false) r -> find_p p (pre ++ r) (Some (length pre)) = None.
Proof.
  intros H. unfold find_p. rewrite skipn_app_len. apply index_of_None in H. now rewrite H.
Qed.

(** split of a string into a leading run and the rest *)
Lemma span_ex (p : ascii -> bool) (s : str) :
  Forall (fun c => p c = true) s \/
  exists a c b, s = a ++ c :: b /\ Forall (fun c => p c = true) a /\ p c = false.
Proof.
  induction s as [|c t [IH|(a & x & b & -> & Ha & Hx)]]; auto.
  - destruct (p c) eqn:E; [left; constructor; auto|right; exists [], c, t; auto].
  - destruct (p c) eqn:E.
    + right. exists (c :: a), x, b. auto.
    + right. exists [], c, (a ++ x :: b). auto.
Qed.

Section Split.
  Variable d : str.
  Let D (c : ascii) : Prop := In c d.

  Lemma F_delim g : Forall (fun c => is_in d c = true) g <-> only D g.
  Proof. unfold only, D. rewrite !Forall_forall. split; intros H c Hc; apply is_in_true, H; auto. Qed.
  Lemma F_tok t : Forall (fun c => is_in d c = false) t <-> only (fun c => ~ D c) t.
  Proof. unfold only, D. rewrite !Forall_forall. split; intros H c Hc; apply is_in_false, H; auto. Qed.
  Lemma F_neg g : Forall (fun c => negb (is_in d c) = false) g <-> Forall (fun c => is_in d c = true) g.
  Proof. rewrite !Forall_forall. split; intros H c Hc; specialize (H c Hc); destruct (is_in d c); auto. Qed.

  Lemma token_loop_ok s : forall fuel pre rest toks,
    s = pre ++ rest -> length rest < fuel ->
    exists new,
      token_loop fuel s d toks (find_first_not_of s d (Some (length pre)))
                 (find_first_of s d (find_first_not_of s d (Some (length pre)))) = Ok (toks ++ new)
      /\ Tokens D rest new.
  Proof.
    induction fuel as [|fuel IH]; intros pre rest toks Hs Hlen; [lia|].
    destruct (span_ex (is_in d) rest) as [Hall|(g & c & b & Hr & Hg & Hc)].
    - exists []. rewrite app_nil_r. subst s.
      assert (E : find_first_not_of (pre ++ rest) d (Some (length pre)) = None)
        by (unfold find_first_not_of; apply find_p_none, F_neg, Hall).
      rewrite E. simpl. split; auto. constructor. now apply F_delim.
    - assert (E : find_first_not_of s d (Some (length pre)) = Some (length pre + length g)).
      { subst s rest. unfold find_first_not_of. apply find_p_app; [now apply F_neg|now rewrite Hc]. }
      rewrite E.
      destruct (span_ex (fun x => negb (is_in d x)) (c :: b)) as [Hall|(t & x & r & Ht & Hta & Hx)].
      + (* last token *)
        assert (Hall' : Forall (fun x => is_in d x = false) (c :: b)).
        { eapply Forall_impl; [|exact Hall]. simpl. intros a Ha. now destruct (is_in d a). }
        assert (E2 : find_first_of s d (Some (length pre + length g)) = None).
        { subst s rest. rewrite app_assoc, <- app_length. apply find_p_none. exact Hall'. }
        rewrite E2. exists [c :: b]. simpl.
        unfold substr. destruct (length s <? length pre + length g) eqn:El.
        { apply Nat.ltb_lt in El. subst s rest. rewrite !app_length in El. simpl in El. lia. }
        simpl. rewrite <- app_length. subst s rest. rewrite app_assoc, skipn_app_len.
        split.
        * destruct fuel; simpl; auto.
        * apply Tok_last; [now apply F_delim|congruence|now apply F_tok].
      + apply negb_false_iff in Hx.
        assert (Hta' : Forall (fun x => is_in d x = false) t).
        { eapply Forall_impl; [|exact Hta]. simpl. intros a Ha. now destruct (is_in d a). }
        assert (Htne : t <> []).
        { intros ->. simpl in Ht. inversion Ht; subst. congruence. }
        assert (E2 : find_first_of s d (Some (length pre + length g)) =
                     Some (length pre + length g + length t)).
        { subst s rest. rewrite Ht. rewrite app_assoc, <- app_length. unfold find_first_of.
          apply find_p_app; auto. }
        rewrite E2. cbn [token_loop is_npos negb orb count_to].
        unfold substr. destruct (length s <? length pre + length g) eqn:El.
        { apply Nat.ltb_lt in El. subst s rest. rewrite !app_length in El. simpl in El. lia. }
        cbn [bind].
        replace (length pre + length g + length t - (length pre + length g)) with (length t) by lia.
        assert (Ets : firstn (length t) (skipn (length pre + length g) s) = t).
        { subst s rest. rewrite Ht, <- app_length, app_assoc, skipn_app_len. apply firstn_app_len. }
        rewrite Ets.
        destruct (IH (pre ++ g ++ t) (x :: r) (toks ++ [t])) as (new & E3 & HT).
        * subst s rest. rewrite Ht. now rewrite <- !app_assoc.
        * subst rest. rewrite app_length in Hlen.
          apply (f_equal (@length _)) in Ht. rewrite app_length in Ht.
          destruct t; [congruence|]. simpl in *. lia.
        * rewrite !app_length, Nat.add_assoc in E3.
          exists (t :: new). split.
          { etransitivity; [exact E3|]. now rewrite <- app_assoc. }
          subst rest. rewrite Ht. apply Tok_more; auto.
          -- now apply F_delim.
          -- now apply F_tok.
          -- now apply is_in_true.
  Qed.

  Lemma SplitStringAdd_ok s toks :
    exists new, SplitStringAdd s toks d = Ok (toks ++ new) /\ Tokens D s new.
  Proof.
    unfold SplitStringAdd.
    destruct (@token_loop_ok s (S (length s)) [] s toks) as (new & E & HT); auto.
    exists new. split; auto.
  Qed.

  Lemma later_delim_iff s :
    HasLaterDelim D s <-> find_first_of s d (find_first_not_of s d (Some 0)) <> None.
  Proof.
    split.
    - intros (g & t & c & r & -> & Hg & Htne & Ht & Hc).
      destruct t as [|c0 t]; [congruence|].
      assert (E : find_first_not_of (g ++ (c0 :: t) ++ c :: r) d (Some 0) = Some (0 + length g)).
      { unfold find_first_not_of. apply (@find_p_app (fun c => negb (is_in d c)) g c0 (t ++ c :: r) []).
        - apply F_neg. now apply F_delim.
        - inversion Ht; subst. apply is_in_false in H1. now rewrite H1. }
      rewrite E. simpl plus.
      unfold find_first_of. rewrite find_p_app; [congruence| |].
      + now apply F_tok.
      + now apply is_in_true.
    - intros H.
      destruct (span_ex (is_in d) s) as [Hall|(g & c & b & Hr & Hg & Hc)].
      + exfalso. apply H.
        assert (E : find_first_not_of s d (Some 0) = None).
        { unfold find_first_not_of. apply (@find_p_none _ s []). now apply F_neg. }
        rewrite E. reflexivity.
      + destruct (span_ex (fun x => negb (is_in d x)) (c :: b)) as [Hall|(t & x & r & Ht & Hta & Hx)].
        * exfalso. apply H.
          assert (E : find_first_not_of s d (Some 0) = Some (0 + length g)).
          { subst s. unfold find_first_not_of. apply (@find_p_app (fun c => negb (is_in d c)) g c b []).
            - now apply F_neg.
            - now rewrite Hc. }
          rewrite E. subst s. simpl plus. apply find_p_none.
          eapply Forall_impl; [|exact Hall]. simpl. intros a Ha. now destruct (is_in d a).
        * exists g, t, x, r. subst s. rewrite Ht. repeat split; auto.
          -- now apply F_delim.
          -- intros ->. simpl in Ht. inversion Ht; subst. rewrite Hc in Hx. simpl in Hx. congruence.
          -- apply F_tok. eapply Forall_impl; [|exact Hta]. simpl. intros a Ha. now destruct (is_in d a).
          -- apply is_in_true. now apply negb_false_iff.
  Qed.

  Lemma SplitString_ok s :
    (HasLaterDelim D s -> exists toks, SplitString s d = Ok toks /\ Tokens D s toks) /\
    (~ HasLaterDelim D s -> SplitString s d = Ok [s]).
  Proof.
    split; intros H.
    - apply later_delim_iff in H. unfold SplitString.
      destruct (find_first_of s d (find_first_not_of s d (Some 0))) as [p|] eqn:E; [|congruence].
      rewrite <- E.
      destruct (@token_loop_ok s (S (length s)) [] s []) as (new & E' & HT); auto.
      exists new. split; auto.
    - unfold SplitString.
      destruct (find_first_of s d (find_first_not_of s d (Some 0))) as [p|] eqn:E; auto.
      exfalso. apply H. apply later_delim_iff. congruence.
  Qed.
End Split.

(** the specification determines the tokens *)
Lemma run_unique (P : ascii -> Prop) a1 c1 b1 a2 c2 b2 :
  a1 ++ c1 :: b1 = a2 ++ c2 :: b2 ->
  Forall P a1 -> Forall P a2 -> ~ P c1 -> ~ P c2 -> a1 = a2 /\ c1 :: b1 = c2 :: b2.
Proof.
  revert a2; induction a1 as [|x a1 IH]; intros [|y a2] E H1 H2 N1 N2; simpl in E.
  - auto.
  - inversion E; subst. inversion H2; subst. tauto.
  - inversion E; subst. inversion H1; subst. tauto.
  - inversion E; subst. inversion H1; subst. inversion H2; subst.
    destruct (IH a2 H3) as [-> ->]; auto.
Qed.

Lemma run_end (P : ascii -> Prop) a1 c1 b1 a2 :
  a1 ++ c1 :: b1 = a2 -> Forall P a2 -> ~ P c1 -> False.
Proof.
  intros <- H N. apply Forall_app in H. destruct H as [_ H]. inversion H; subst. tauto.
Qed.

Lemma Tokens_unique delim s l1 : Tokens delim s l1 -> forall l2, Tokens delim s l2 -> l1 = l2.
Proof.
  induction 1 as [g Hg|g t Hg Hne Ht|g t c r ts Hg Hne Ht Hc HT IH]; intros l2 H2.
  - inversion H2 as [g' Hg' E|g' t' Hg' Hne' Ht' E|g' t' c' r' ts' Hg' Hne' Ht' Hc' HT' E]; subst; auto.
    + destruct t' as [|x t']; [congruence|]. inversion Ht'; subst.
      exfalso. eapply run_end; [reflexivity|exact Hg|tauto].
    + destruct t' as [|x t']; [congruence|]. inversion Ht'; subst.
      exfalso. eapply run_end; [reflexivity|exact Hg|tauto].
  - destruct t as [|x t]; [congruence|]. assert (Hx : ~ delim x) by (inversion Ht; auto).
    inversion H2 as [g' Hg' E|g' t' Hg' Hne' Ht' E|g' t' c' r' ts' Hg' Hne' Ht' Hc' HT' E].
    + exfalso. eapply run_end; [reflexivity|exact Hg'|exact Hx].
    + destruct t' as [|x' t']; [congruence|]. assert (Hx' : ~ delim x') by (inversion Ht'; auto).
      destruct (run_unique delim _ _ _ _ _ _ E) as [-> ->]; auto.
    + destruct t' as [|x' t']; [congruence|]. assert (Hx' : ~ delim x') by (inversion Ht'; auto).
      simpl in E. destruct (run_unique delim _ _ _ _ _ _ E) as [-> E2]; auto.
      exfalso. 
      change (x' :: t' ++ c' :: r') with ((x' :: t') ++ c' :: r') in E2.
      eapply (run_end (fun c => ~ delim c)); [exact E2|exact Ht|tauto].
  - destruct t as [|x t]; [congruence|]. assert (Hx : ~ delim x) by (inversion Ht; auto).
    inversion H2 as [g' Hg' E|g' t' Hg' Hne' Ht' E|g' t' c' r' ts' Hg' Hne' Ht' Hc' HT' E].
    + exfalso. eapply run_end; [reflexivity|exact Hg'|exact Hx].
    + destruct t' as [|x' t']; [congruence|]. assert (Hx' : ~ delim x') by (inversion Ht'; auto).
      simpl in E. destruct (run_unique delim _ _ _ _ _ _ E) as [-> E2]; auto.
      exfalso. change (x :: t ++ c :: r) with ((x :: t) ++ c :: r) in E2.
      eapply (run_end (fun c => ~ delim c)); [symmetry; exact E2|exact Ht'|tauto].
    + destruct t' as [|x' t']; [congruence|]. assert (Hx' : ~ delim x') by (inversion Ht'; auto).
      simpl in E. destruct (run_unique delim _ _ _ _ _ _ E) as [-> E2]; auto.
      change (x' :: t' ++ c' :: r') with ((x' :: t') ++ c' :: r') in E2.
      change (x :: t ++ c :: r) with ((x :: t) ++ c :: r) in E2.
      destruct (run_unique (fun c => ~ delim c) _ _ _ _ _ _ E2) as [E3 E4]; auto.
      inversion E3; subst. inversion E4; subst. f_equal. apply IH. auto.
Qed.

Set Implicit Arguments.
Unset Strict Implicit.

(** ---- ChopComment ---- *)
Lemma ChopComment_ok s c :
  exists r rest, ChopComment s c = Ok r /\ s = r ++ rest /\ Forall (fun x => x <> c) r /\
                 (rest = [] \/ exists rest', rest = c :: rest').
Proof.
  unfold ChopComment, find_char, find_p. simpl skipn.
  destruct (index_of (ch_eqb c) s) as [k|] eqn:E; simpl.
  - destruct (index_of_Some _ _ _ E) as (a & x & b & -> & <- & Ha & Hx).
    apply ch_eqb_true in Hx. subst x.
    exists a, (c :: b). unfold substr. simpl. rewrite firstn_app_len. repeat split; auto.
    + eapply Forall_impl; [|exact Ha]. simpl. intros y Hy ->. rewrite ch_eqb_refl in Hy. congruence.
    + right. eauto.
  - apply index_of_None in E. exists s, []. unfold substr. simpl. rewrite app_nil_r. repeat split; auto.
    eapply Forall_impl; [|exact E]. simpl. intros y Hy ->. rewrite ch_eqb_refl in Hy. congruence.
Qed.

Lemma ChopComment_none s c : Forall (fun x => x <> c) s -> ChopComment s c = Ok s.
Proof.
  intros H. destruct (ChopComment_ok s c) as (r & rest & E & -> & _ & [->|(r' & ->)]).
  - now rewrite app_nil_r in *.
  - apply Forall_app in H. destruct H as [_ H]. inversion H. congruence.
Qed.

Lemma ChopComment_some a c b : Forall (fun x => x <> c) a -> ChopComment (a ++ c :: b) c = Ok a.
Proof.
  intros H. unfold ChopComment, find_char, find_p. simpl skipn.
  rewrite index_of_app.
  - unfold substr. simpl. now rewrite firstn_app_len.
  - eapply Forall_impl; [|exact H]. simpl. intros y Hy.
    destruct (ch_eqb c y) eqn:E; auto. apply ch_eqb_true in E. congruence.
  - apply ch_eqb_refl.
Qed.

(** ---- TrimWhitespace ---- *)
Lemma last_index_of_None p s : Forall (fun c => p c = false) s -> last_index_of p s = None.
Proof.
  induction s as [|c t IH]; simpl; intros H; auto. inversion H; subst.
  rewrite IH, H2; auto.
Qed.

Lemma last_index_of_app p a c b :
  p c = true -> Forall (fun c => p c = false) b -> last_index_of p (a ++ c :: b) = Some (length a).
Proof.
  intros Hc Hb. induction a as [|x a IH]; simpl.
  - rewrite last_index_of_None; auto. now rewrite Hc.
  - now rewrite IH.
Qed.

Lemma span_last_ex (p : ascii -> bool) (s : str) :
  Forall (fun c => p c = true) s \/
  exists a c b, s = a ++ c :: b /\ Forall (fun c => p c = true) b /\ p c = false.
Proof.
  induction s as [|c t [IH|(a & x & b & -> & Hb & Hx)]]; auto.
  - destruct (p c) eqn:E; [left; constructor; auto|right; exists [], c, t; auto].
  - right. exists (c :: a), x, b. auto.
Qed.

Definition blank (c : ascii) : Prop := c = spc \/ c = tab \/ c = nl.
Lemma blank_is_in c : is_in [spc; tab; nl] c = true <-> blank c.
Proof. rewrite is_in_true. unfold blank. simpl. intuition. Qed.

Lemma Forall_blank s : Forall (fun c => is_in [spc; tab; nl] c = true) s <-> only blank s.
Proof. unfold only. rewrite !Forall_forall. split; intros H x Hx; apply blank_is_in, H; auto. Qed.

Lemma TrimWhitespace_ok s :
  exists t, Trimmed blank s t /\
            TrimWhitespace s = Ok (if length t =? 1 then [] else t).
Proof.
  set (p := is_in [spc; tab; nl]).
  destruct (span_ex p s) as [Hall|(g & c & b & Hs & Hg & Hc)].
  - exists []. split.
    + exists s, []. simpl. rewrite app_nil_r. repeat split; auto; [now apply Forall_blank|constructor].
    + simpl. unfold TrimWhitespace. destruct s as [|x s]; auto.
      assert (E1 : find_first_not_of (x :: s) [spc; tab; nl] (Some 0) = None).
      { unfold find_first_not_of. apply (@find_p_none _ (x :: s) []). 
        eapply Forall_impl; [|exact Hall]. intros y Hy. unfold p in Hy. now rewrite Hy. }
      assert (E2 : find_last_not_of (x :: s) [spc; tab; nl] = None).
      { unfold find_last_not_of. apply last_index_of_None.
        eapply Forall_impl; [|exact Hall]. intros y Hy. unfold p in Hy. now rewrite Hy. }
      rewrite E1, E2. reflexivity.
  - destruct (span_last_ex p (c :: b)) as [Hall|(a & x & h & Hr & Hh & Hx)].
    { inversion Hall; subst. congruence. }
    exists (a ++ [x]). split.
    + exists g, h. subst s. rewrite Hr, <- app_assoc. simpl. repeat split.
      * now apply Forall_blank.
      * now apply Forall_blank.
      * right. split.
        -- destruct a as [|y a]; simpl in Hr; inversion Hr; subst.
           ++ exists x, []. simpl. split; auto. rewrite <- blank_is_in. fold p. congruence.
           ++ exists y, (a ++ [x]). split; auto. rewrite <- blank_is_in. fold p. congruence.
        -- exists a, x. split; auto. rewrite <- blank_is_in. fold p. congruence.
    + assert (E1 : find_first_not_of s [spc; tab; nl] (Some 0) = Some (length g)).
      { subst s. unfold find_first_not_of.
        apply (@find_p_app (fun c => negb (is_in [spc; tab; nl] c)) g c b []).
        - eapply Forall_impl; [|exact Hg]. intros y Hy. unfold p in Hy. now rewrite Hy.
        - unfold p in Hc. now rewrite Hc. }
      assert (E2 : find_last_not_of s [spc; tab; nl] = Some (length g + length a)).
      { subst s. rewrite Hr, app_assoc, <- app_length. unfold find_last_not_of.
        apply last_index_of_app.
        - unfold p in Hx. now rewrite Hx.
        - eapply Forall_impl; [|exact Hh]. intros y Hy. unfold p in Hy. now rewrite Hy. }
      assert (Hne : s <> []) by (subst s; destruct g; simpl; congruence).
      unfold TrimWhitespace. destruct s as [|s0 s']; [congruence|].
      rewrite E1, E2. rewrite app_length. simpl length.
      destruct (length g =? length g + length a) eqn:E.
      * apply Nat.eqb_eq in E. assert (length a = 0) by lia. 
        rewrite H. reflexivity.
      * apply Nat.eqb_neq in E. destruct (length a + 1 =? 1) eqn:E3; [apply Nat.eqb_eq in E3; lia|].
        unfold substr. rewrite Hs, Hr. 
        destruct (length (g ++ a ++ x :: h) <? length g) eqn:El.
        { apply Nat.ltb_lt in El. rewrite app_length in El. lia. }
        f_equal. rewrite skipn_app_len.
        replace (length g + length a - length g + 1) with (length (a ++ [x]))
          by (rewrite app_length; simpl; lia).
        replace (a ++ x :: h) with ((a ++ [x]) ++ h) by now rewrite <- app_assoc.
        apply firstn_app_len.
Qed.

Lemma Trimmed_unique (P : ascii -> Prop) s t1 t2 : Trimmed P s t1 -> Trimmed P s t2 -> t1 = t2.
Proof.
  intros (g1 & h1 & E1 & Hg1 & Hh1 & K1) (g2 & h2 & E2 & Hg2 & Hh2 & K2).
  destruct K1 as [->|[(c1 & r1 & Ea1 & N1) (q1 & e1 & Eb1 & M1)]];
  destruct K2 as [->|[(c2 & r2 & Ea2 & N2) (q2 & e2 & Eb2 & M2)]]; auto.
  - exfalso. rewrite E1 in E2. simpl in E2. rewrite Ea2 in E2.
    assert (Hall : Forall P (g1 ++ h1)) by (apply Forall_app; auto).
    rewrite E2 in Hall. apply Forall_app in Hall. destruct Hall as [_ Hall].
    inversion Hall; subst. tauto.
  - exfalso. rewrite E1 in E2. simpl in E2. rewrite Ea1 in E2.
    assert (Hall : Forall P (g2 ++ h2)) by (apply Forall_app; auto).
    rewrite <- E2 in Hall. apply Forall_app in Hall. destruct Hall as [_ Hall].
    inversion Hall; subst. tauto.
  - rewrite E1 in E2. rewrite Ea1, Ea2 in E2. simpl in E2.
    destruct (run_unique P _ _ _ _ _ _ E2) as [-> E3]; auto.
    change (c1 :: r1 ++ h1) with ((c1 :: r1) ++ h1) in E3.
    change (c2 :: r2 ++ h2) with ((c2 :: r2) ++ h2) in E3.
    rewrite <- Ea1, <- Ea2 in E3. rewrite Eb1, Eb2 in E3.
    apply (f_equal (@rev _)) in E3. rewrite !rev_app_distr in E3. simpl in E3.
    destruct (run_unique P _ _ _ _ _ _ E3) as [Eh E4]; auto; [now apply Forall_rev|now apply Forall_rev|].
    inversion E4. apply (f_equal (@rev _)) in H1. rewrite !rev_involutive in H1. congruence.
Qed.

(** ---- numerals and image sections ---- *)
Lemma DigitVal_digit_val c v : DigitVal c v -> digit_val c = Some v.
Proof.
  intros [H E]. unfold digit_val. rewrite E.
  destruct ((48 <=? Z.to_nat (48 + v)) && (Z.to_nat (48 + v) <=? 57)) eqn:B.
  - f_equal. lia.
  - apply andb_false_iff in B. rewrite !Nat.leb_gt in B. lia.
Qed.

Lemma read_digits_snoc s c w : Forall (fun c => is_digit c = true) s -> digit_val c = Some w ->
  forall acc, read_digits (s ++ [c]) acc = (10 * read_digits s acc + w)%Z.
Proof.
  intros Hs Hc. induction s as [|x s IH]; intros acc; simpl.
  - now rewrite Hc.
  - inversion Hs; subst. unfold is_digit in H1. destruct (digit_val x); [|congruence]. apply IH; auto.
Qed.

Lemma Digits_all s v : Digits s v -> s <> [] /\ Forall (fun c => is_digit c = true) s.
Proof.
  induction 1 as [c v H|s v c w H [IH1 IH2] Hc].
  - split; [congruence|]. constructor; auto. unfold is_digit. now rewrite (DigitVal_digit_val H).
  - split.
    + destruct s; simpl; congruence.
    + apply Forall_app. split; auto. constructor; auto. unfold is_digit. now rewrite (DigitVal_digit_val Hc).
Qed.

Lemma Digits_read s v : Digits s v -> read_digits s 0 = v.
Proof.
  induction 1 as [c v H|s v c w H IH Hc].
  - simpl. rewrite (DigitVal_digit_val H). lia.
  - rewrite (@read_digits_snoc s c w); [now rewrite IH| |].
    + now apply Digits_all in H.
    + now apply DigitVal_digit_val.
Qed.

Lemma Digits_nonneg s v : Digits s v -> (0 <= v)%Z.
Proof. induction 1 as [c v [H _]|s v c w H IH [Hc _]]; lia. Qed.

Lemma is_digit_code c : is_digit c = true -> 48 <= nat_of_ascii c <= 57.
Proof.
  unfold is_digit, digit_val.
  destruct ((48 <=? nat_of_ascii c) && (nat_of_ascii c <=? 57)) eqn:E; [|congruence].
  apply andb_true_iff in E. rewrite !Nat.leb_le in E. auto.
Qed.

Lemma digit_not c n : is_digit c = true -> n < 48 \/ 57 < n < 256 -> c <> ascii_of_nat n.
Proof.
  intros H Hn ->. apply is_digit_code in H. rewrite nat_ascii_embedding in H; lia.
Qed.

Lemma digit_not_space c : is_digit c = true -> is_space c = false.
Proof.
  intros H. apply is_digit_code in H. unfold is_space.
  destruct (nat_of_ascii c =? 32) eqn:E1; [apply Nat.eqb_eq in E1; lia|].
  destruct (9 <=? nat_of_ascii c) eqn:E2; auto. simpl. apply Nat.leb_gt. lia.
Qed.

Lemma ch_eqb_false a b : a <> b -> ch_eqb a b = false.
Proof. intros H. destruct (ch_eqb a b) eqn:E; auto. apply ch_eqb_true in E. tauto. Qed.

Lemma atoi_digits s v : Digits s v -> (v <= INT_MAX)%Z -> atoi s = Ok v.
Proof.
  intros H Hv. destruct (Digits_all H) as [Hne Hall]. pose proof (Digits_read H) as Hr.
  pose proof (Digits_nonneg H) as Hn.
  unfold atoi. destruct s as [|c s]; [congruence|]. inversion Hall; subst.
  cbn [skip_spaces]. rewrite (digit_not_space H2).
  rewrite (@ch_eqb_false c (ascii_of_nat 45)) by (apply digit_not; auto; lia).
  rewrite (@ch_eqb_false c (ascii_of_nat 43)) by (apply digit_not; auto; lia).
  destruct (fits_int (read_digits (c :: s) 0)) eqn:E; auto.
  unfold fits_int in E. apply andb_false_iff in E. rewrite !Z.leb_gt in E. unfold INT_MIN in E. lia.
Qed.

(** splitting "a<c>b" on the single character c *)
Lemma SplitString_two a c b :
  a <> [] -> b <> [] -> Forall (fun x => x <> c) a -> Forall (fun x => x <> c) b ->
  SplitString (a ++ c :: b) [c] = Ok [a; b].
Proof.
  intros Ha Hb Fa Fb.
  assert (Fa' : only (fun x => ~ In x [c]) a).
  { eapply Forall_impl; [|exact Fa]. simpl. intuition. }
  assert (Fb' : only (fun x => ~ In x [c]) b).
  { eapply Forall_impl; [|exact Fb]. simpl. intuition. }
  destruct (SplitString_ok [c] (a ++ c :: b)) as [H _].
  destruct H as (toks & E & HT).
  - exists [], a, c, b. repeat split; auto; simpl; auto. constructor.
  - rewrite E. f_equal. eapply Tokens_unique; [exact HT|].
    apply (@Tok_more (fun x => In x [c]) [] a c b [b]); auto; [constructor|simpl; auto|].
    apply (@Tok_last (fun x => In x [c]) [c] b); auto.
    constructor; simpl; auto.
Qed.

Lemma SplitString_one s c : Forall (fun x => x <> c) s -> SplitString s [c] = Ok [s].
Proof.
  intros Fs. destruct (SplitString_ok [c] s) as [_ H]. apply H.
  intros (g & t & x & r & -> & _ & _ & _ & Hx). simpl in Hx. destruct Hx as [<-|[]].
  apply Forall_app in Fs. destruct Fs as [_ Fs]. apply Forall_app in Fs. destruct Fs as [_ Fs].
  inversion Fs. congruence.
Qed.

Lemma digits_no c s v : Digits s v -> c < 48 \/ 57 < c < 256 -> Forall (fun x => x <> ascii_of_nat c) s.
Proof.
  intros H Hc. destruct (Digits_all H) as [_ Hall]. eapply Forall_impl; [|exact Hall].
  simpl. intros a Ha. apply digit_not; auto.
Qed.

Lemma SecAxis_no s v n : SecAxis s v -> n < 48 \/ 57 < n < 256 -> n <> 42 -> n <> 58 ->
  s <> [] /\ Forall (fun x => x <> ascii_of_nat n) s.
Proof.
  intros H Hn N1 N2.
  assert (K : forall m, m < 256 -> m <> n -> ascii_of_nat m <> ascii_of_nat n).
  { intros m Hm Hmn E. apply (f_equal nat_of_ascii) in E. rewrite !nat_ascii_embedding in E; lia. }
  destruct H as [|a b va vb Ha Hb].
  - split; [congruence|]. constructor; auto. apply K; lia.
  - split; [destruct a; simpl; congruence|]. apply Forall_app. split.
    + eapply digits_no; eauto.
    + constructor; [apply K; lia|eapply digits_no; eauto].
Qed.

Lemma axis_value s v : SecAxis s v -> (v <= INT_MAX)%Z ->
  (if str_eqb s star then Ok (Some 1%Z)
   else do xs <- SplitString s [colon];
        if length xs =? 2 then (do a <- get xs 0; do w <- atoi a; Ok (Some w)) else Ok None)
  = Ok (Some v).
Proof.
  intros H Hv. destruct H as [|a b va vb Ha Hb].
  - reflexivity.
  - destruct (Digits_all Ha) as [Hane Hall]. destruct (Digits_all Hb) as [Hbne Hbll].
    destruct (str_eqb (a ++ ascii_of_nat 58 :: b) star) eqn:E.
    { exfalso. apply str_eqb_true in E. destruct a as [|x [|y a]]; [congruence| |]; simpl in E; discriminate. }
    fold colon. rewrite SplitString_two; auto.
    + simpl. rewrite (atoi_digits Ha Hv). reflexivity.
    + eapply digits_no; eauto. lia.
    + eapply digits_no; eauto. lia.
Qed.

Lemma GetStartCoords_ok s x y : Section_ s x y -> (x <= INT_MAX)%Z -> (y <= INT_MAX)%Z ->
  GetStartCoordsFromBracket s = Ok (x, y).
Proof.
  intros (sx & sy & -> & Hx & Hy) Bx By.
  destruct (SecAxis_no (n := 44) Hx) as [Nx Fx]; try lia.
  destruct (SecAxis_no (n := 44) Hy) as [Ny Fy]; try lia.
  unfold GetStartCoordsFromBracket. fold comma. rewrite SplitString_two by auto.
  cbn [bind get nth_error]. rewrite (axis_value Hx Bx). cbn [bind].
  rewrite (axis_value Hy By). reflexivity.
Qed.

Lemma Section_no s x y n : Section_ s x y -> n = 91 \/ n = 93 -> Forall (fun c => c <> ascii_of_nat n) s.
Proof.
  intros (sx & sy & -> & Hx & Hy) Hn. apply Forall_app. split.
  - eapply SecAxis_no; eauto; lia.
  - constructor; [destruct Hn as [->| ->]; discriminate|]. eapply SecAxis_no; eauto; lia.
Qed.

Lemma find_char_app a c b pre :
  Forall (fun x => x <> c) a ->
  find_char (pre ++ a ++ c :: b) c (Some (length pre)) = Some (length pre + length a).
Proof.
  intros H. unfold find_char. apply find_p_app.
  - eapply Forall_impl; [|exact H]. simpl. intros x Hx. apply ch_eqb_false. auto.
  - apply ch_eqb_refl.
Qed.

Lemma find_char_none r c pre :
  Forall (fun x => x <> c) r -> find_char (pre ++ r) c (Some (length pre)) = None.
Proof.
  intros H. unfold find_char. apply find_p_none.
  eapply Forall_impl; [|exact H]. simpl. intros x Hx. apply ch_eqb_false. auto.
Qed.

Lemma SplitString_section s x y : Section_ s x y -> exists a b, SplitString s [comma] = Ok [a; b].
Proof.
  intros (sx & sy & -> & Hx & Hy).
  destruct (SecAxis_no (n := 44) Hx) as [Nx Fx]; try lia.
  destruct (SecAxis_no (n := 44) Hy) as [Ny Fy]; try lia.
  exists sx, sy. fold comma. apply SplitString_two; auto.
Qed.

(** base[section]tail *)
Lemma offset_section base sec tail x y :
  no_char 91 base -> Section_ sec x y -> no_char 91 tail -> (x <= INT_MAX)%Z -> (y <= INT_MAX)%Z ->
  DetermineImageOffset (base ++ lbr :: sec ++ rbr :: tail) = Ok (x - 1, y - 1)%Z.
Proof.
  intros Hb Hs Ht Bx By. set (name := base ++ lbr :: sec ++ rbr :: tail).
  assert (F1 : find_char name lbr (Some 0) = Some (length base)).
  { apply (@find_char_app base lbr (sec ++ rbr :: tail) []). exact Hb. }
  assert (F2 : find_char name rbr (Some (length base)) = Some (length base + S (length sec))).
  { unfold name. change (lbr :: sec ++ rbr :: tail) with ((lbr :: sec) ++ rbr :: tail).
    rewrite find_char_app; auto. constructor; [discriminate|]. eapply Section_no; eauto. }
  assert (F3 : find_char name lbr (Some (length base + S (length sec))) = None).
  { unfold name. replace (base ++ lbr :: sec ++ rbr :: tail) with ((base ++ lbr :: sec) ++ rbr :: tail)
      by (rewrite <- app_assoc; reflexivity).
    replace (length base + S (length sec)) with (length (base ++ lbr :: sec))
      by (rewrite app_length; simpl; lia).
    apply find_char_none. constructor; auto. discriminate. }
  assert (F4 : substr name (length base + 1) (Some (length base + S (length sec) - length base - 1)) = Ok sec).
  { unfold substr, name.
    replace (base ++ lbr :: sec ++ rbr :: tail) with ((base ++ [lbr]) ++ sec ++ rbr :: tail)
      by (rewrite <- app_assoc; reflexivity).
    replace (length base + 1) with (length (base ++ [lbr])) by (rewrite app_length; reflexivity).
    destruct (_ <? _) eqn:El; [apply Nat.ltb_lt in El; rewrite app_length in El; lia|].
    rewrite skipn_app_len. f_equal.
    replace (length base + S (length sec) - length base - 1) with (length sec) by lia.
    apply firstn_app_len. }
  unfold DetermineImageOffset, GetPixelStartCoords. rewrite F1, F2, F3.
  cbn [find_char find_p]. rewrite F4. cbn [bind].
  destruct (SplitString_section Hs) as (p & q & E). rewrite E. cbn [bind length Nat.eqb].
  rewrite (GetStartCoords_ok Hs Bx By). reflexivity.
Qed.

(** base[ext][section]tail *)
Lemma offset_ext_section base ext mid sec tail x y :
  no_char 91 base -> ext <> [] -> no_char 93 ext -> no_char 44 ext ->
  no_char 91 mid ->
  Section_ sec x y -> (x <= INT_MAX)%Z -> (y <= INT_MAX)%Z ->
  DetermineImageOffset (base ++ lbr :: ext ++ rbr :: mid ++ lbr :: sec ++ rbr :: tail) = Ok (x - 1, y - 1)%Z.
Proof.
  intros Hb Hne He1 He3 Hm Hs Bx By.
  set (name := base ++ lbr :: ext ++ rbr :: mid ++ lbr :: sec ++ rbr :: tail).
  assert (F1 : find_char name lbr (Some 0) = Some (length base)).
  { apply (@find_char_app base lbr _ []). exact Hb. }
  assert (F2 : find_char name rbr (Some (length base)) = Some (length base + S (length ext))).
  { unfold name.
    change (lbr :: ext ++ rbr :: mid ++ lbr :: sec ++ rbr :: tail)
      with ((lbr :: ext) ++ rbr :: mid ++ lbr :: sec ++ rbr :: tail).
    rewrite find_char_app; auto. constructor; [discriminate|auto]. }
  set (pre := base ++ lbr :: ext).
  assert (Hpre : length pre = length base + S (length ext)).
  { unfold pre. rewrite app_length. simpl. lia. }
  assert (Hname : name = pre ++ (rbr :: mid) ++ lbr :: sec ++ rbr :: tail).
  { unfold name, pre. rewrite <- app_assoc. reflexivity. }
  assert (F3 : find_char name lbr (Some (length pre)) = Some (length pre + S (length mid))).
  { rewrite Hname. rewrite find_char_app; auto. constructor; [discriminate|auto]. }
  set (pre2 := pre ++ rbr :: mid).
  assert (Hpre2 : length pre2 = length pre + S (length mid)).
  { unfold pre2. rewrite app_length. simpl. lia. }
  assert (Hname2 : name = pre2 ++ (lbr :: sec) ++ rbr :: tail).
  { rewrite Hname. unfold pre2. rewrite <- app_assoc. reflexivity. }
  assert (F4 : find_char name rbr (Some (length pre2)) = Some (length pre2 + S (length sec))).
  { rewrite Hname2. rewrite find_char_app; auto. constructor; [discriminate|]. eapply Section_no; eauto. }
  assert (S1 : substr name (length base + 1) (Some (length pre - length base - 1)) = Ok ext).
  { unfold substr, name.
    replace (base ++ lbr :: ext ++ rbr :: mid ++ lbr :: sec ++ rbr :: tail)
      with ((base ++ [lbr]) ++ ext ++ rbr :: mid ++ lbr :: sec ++ rbr :: tail)
      by (rewrite <- app_assoc; reflexivity).
    replace (length base + 1) with (length (base ++ [lbr])) by (rewrite app_length; reflexivity).
    destruct (_ <? _) eqn:El; [apply Nat.ltb_lt in El; rewrite app_length in El; lia|].
    rewrite skipn_app_len. f_equal.
    replace (length pre - length base - 1) with (length ext) by lia. apply firstn_app_len. }
  assert (S2 : substr name (length pre2 + 1) (Some (length pre2 + S (length sec) - length pre2 - 1)) = Ok sec).
  { unfold substr. rewrite Hname2.
    replace (pre2 ++ (lbr :: sec) ++ rbr :: tail) with ((pre2 ++ [lbr]) ++ sec ++ rbr :: tail)
      by (rewrite <- app_assoc; reflexivity).
    replace (length pre2 + 1) with (length (pre2 ++ [lbr])) by (rewrite app_length; reflexivity).
    destruct (_ <? _) eqn:El; [apply Nat.ltb_lt in El; rewrite app_length in El; lia|].
    rewrite skipn_app_len. f_equal.
    replace (length pre2 + S (length sec) - length pre2 - 1) with (length sec) by lia.
    apply firstn_app_len. }
  unfold DetermineImageOffset, GetPixelStartCoords. rewrite F1, F2, <- Hpre, F3, <- Hpre2, F4.
  rewrite S1. cbn [bind]. rewrite SplitString_one by exact He3. cbn [bind length Nat.eqb negb orb].
  destruct ext as [|e ext']; [congruence|]. cbn [length Nat.ltb Nat.leb].
  rewrite S2. cbn [bind]. destruct (SplitString_section Hs) as (p & q & E).
  rewrite E. cbn [bind length Nat.eqb negb]. rewrite (GetStartCoords_ok Hs Bx By). reflexivity.
Qed.

Lemma offset_plain base : no_char 91 base -> DetermineImageOffset base = Ok (0, 0)%Z.
Proof.
  intros H. unfold DetermineImageOffset, GetPixelStartCoords.
  assert (E : find_char base lbr (Some 0) = None) by (apply (@find_char_none base lbr []); exact H).
  rewrite E. reflexivity.
Qed.
