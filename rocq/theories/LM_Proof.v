(** Proofs about the Levenberg-Marquardt solver that hold in any arithmetic. *)
From Coq Require Import ZArith List Bool Lia.
From Verif Require Import Base Num DE_Model LM_Model LM_Spec DE_Proof CmdLine_Proof.
Import ListNotations.
Set Implicit Arguments.
Unset Strict Implicit.

(** ---- loops that append one element per pass ---- *)
Lemma for_append {B} (f : nat -> res B) (g : nat -> list B -> res (list B)) n (l : list B) :
  (forall i acc, i < n -> g i acc = (do y <- f i; Ok (acc ++ [y]))) ->
  for_ n g [] = Ok l -> length l = n /\ forall i, i < n -> exists y, f i = Ok y /\ nth_error l i = Some y.
Proof.
  intros G E.
  apply (@for_ok (list B) (fun k acc => length acc = k /\ forall i, i < k -> exists y, f i = Ok y /\ nth_error acc i = Some y)
    g n [] l); [split; [reflexivity|intros; lia]| |exact E].
  intros i a b Hi (La & Ha) Eb. rewrite G in Eb by assumption. apply bind_Ok in Eb. destruct Eb as (y & Ey & Eb).
  apply Ok_inj in Eb. subst b. split; [rewrite app_length; simpl; lia|].
  intros k Hk. destruct (Nat.eq_dec k i) as [->|Hne].
  - exists y. split; [assumption|]. rewrite nth_error_app2 by lia. rewrite La, Nat.sub_diag. reflexivity.
  - destruct (Ha k) as (z & Ez & Hz); [lia|]. exists z. split; [assumption|]. rewrite nth_error_app1 by lia. assumption.
Qed.

Section P.
Variable T : Type.
Variable N : Num T.

Lemma zeros_len n : length (zeros N n) = n.
Proof. apply repeat_length. Qed.

(** ---- free parameters ---- *)
Definition is_free (pars : option (list (limits T))) (j : nat) : Prop :=
  match pars with None => True | Some ps => exists p, nth_error ps j = Some p /\ fixed p = false end.

Lemma free_indices_ok pars n ifree : free_indices pars n = Ok ifree ->
  NoDup ifree /\ (forall j, In j ifree <-> j < n /\ is_free pars j) /\
  (forall ps, pars = Some ps -> n <= length ps).
Proof.
  intros E.
  assert (H : NoDup ifree /\ (forall j, In j ifree <-> j < n /\ is_free pars j) /\ (forall ps, pars = Some ps -> n <= length ps)).
  { revert E. apply (@for_ok (list nat) (fun k fr => NoDup fr /\ (forall j, In j fr <-> j < k /\ is_free pars j) /\
      (forall ps, pars = Some ps -> k <= length ps))).
    - split; [apply NoDup_nil|]. split; [|intros; lia]. intros j. split; [intros []|intros [? ?]; lia].
    - intros i a b Hi (ND & Hin & Hl) E.
      assert (Hni : ~ In i a) by (rewrite Hin; lia).
      assert (NDi : NoDup (a ++ [i])).
      { apply NoDup_rev in ND. rewrite <- (rev_involutive (a ++ [i])). apply NoDup_rev. rewrite rev_app_distr. simpl.
        constructor; [now rewrite <- in_rev|assumption]. }
      destruct pars as [ps|].
      + apply bind_Ok in E. destruct E as (p & Ep & E). apply get_some in Ep. apply Ok_inj in E.
        assert (i < length ps) by (apply nth_error_Some; congruence).
        destruct (fixed p) eqn:F; subst b.
        * repeat split; auto.
          -- apply Hin in H0. lia.
          -- apply Hin in H0. apply H0.
          -- intros (Hj & q & Hq & Fq). apply Hin. split; [|exists q; auto].
             assert (j <> i); [intros ->; congruence|lia].
          -- intros ps' [= <-]. lia.
        * split; [assumption|]. split.
          -- intros j. rewrite in_app_iff. simpl. rewrite Hin. split.
             ++ intros [(Hj & q)|[->|[]]]; (split; [lia|auto]). exists p; auto.
             ++ intros (Hj & q). destruct (Nat.eq_dec i j); [auto|left; split; [lia|auto]].
          -- intros ps' [= <-]. lia.
      + apply Ok_inj in E. subst b. split; [assumption|]. split; [|discriminate].
        intros j. rewrite in_app_iff. simpl. rewrite Hin. split; [intros [(? & ?)|[->|[]]]; (split; [lia|exact I])|].
        intros (Hj & _). destruct (Nat.eq_dec i j); [auto|left; split; [lia|exact I]]. }
  exact H.
Qed.

(** ---- the checks on the limits ---- *)
Lemma check_limits_ok n ps xall e : check_limits N n ps xall = Ok e ->
  match e with
  | None => forall j p x, j < n -> nth_error ps j = Some p -> nth_error xall j = Some x ->
      ~ empty_interval (nleb N) p /\ ~ starts_outside (nltb N) p x
  | Some c => exists j p x, j < n /\ nth_error ps j = Some p /\ nth_error xall j = Some x /\
      ((c = MP_ERR_BOUNDS /\ empty_interval (nleb N) p) \/ (c = MP_ERR_INITBOUNDS /\ starts_outside (nltb N) p x))
  end.
Proof.
  apply (@for_ok (option Z) (fun k e => match e with
  | None => forall j p x, j < k -> nth_error ps j = Some p -> nth_error xall j = Some x ->
      ~ empty_interval (nleb N) p /\ ~ starts_outside (nltb N) p x
  | Some c => exists j p x, j < k /\ nth_error ps j = Some p /\ nth_error xall j = Some x /\
      ((c = MP_ERR_BOUNDS /\ empty_interval (nleb N) p) \/ (c = MP_ERR_INITBOUNDS /\ starts_outside (nltb N) p x))
  end)); [intros; lia|].
  intros i a b Hi Ha E. destruct a as [c|].
  - apply Ok_inj in E. subst b. destruct Ha as (j & p & x & Hj & Ha). exists j, p, x. split; [lia|assumption].
  - inv E. inv E. apply get_some in H. apply get_some in H0. rename x into p. rename x0 into x.
    destruct (negb (fixed p) && limited0 p && limited1 p && nleb N (lim1 p) (lim0 p)) eqn:C1.
    + apply Ok_inj in E. subst b. exists i, p, x. split; [lia|]. split; [assumption|]. split; [assumption|]. left. split; [reflexivity|].
      rewrite !andb_true_iff, negb_true_iff in C1. destruct C1 as [[[? ?] ?] ?]. repeat split; assumption.
    + destruct ((limited0 p && nltb N x (lim0 p)) || (limited1 p && nltb N (lim1 p) x)) eqn:C2.
      * apply Ok_inj in E. subst b. exists i, p, x. split; [lia|]. split; [assumption|]. split; [assumption|]. right. split; [reflexivity|].
        rewrite orb_true_iff, !andb_true_iff in C2. exact C2.
      * apply Ok_inj in E. subst b. intros j q y Hj Hq Hy. destruct (Nat.eq_dec j i) as [->|Hne]; [|apply (Ha j); auto; lia].
        rewrite H in Hq. rewrite H0 in Hy. injection Hq as <-. injection Hy as <-. split.
        -- intros (F & A & B & C). rewrite F, A, B, C in C1. discriminate.
        -- intros [(A & B)|(A & B)]; rewrite A, B in C2; simpl in C2; [discriminate|rewrite orb_true_r in C2; discriminate].
Qed.

Lemma free_limits_ok ifree (ps q : list (limits T)) : free_limits ifree ps = Ok q ->
  length q = length ifree /\ forall i p, nth_error ifree i = Some p -> nth_error q i = nth_error ps p /\ p < length ps.
Proof.
  intros E. apply (@for_append _ (fun i => do p <- get ifree i; get ps p)) in E.
  - destruct E as (L & H). split; [assumption|]. intros i p Hp.
    assert (Hi : i < length ifree) by (apply nth_error_Some; congruence).
    destruct (H i Hi) as (y & Ey & Hy). inv Ey. apply get_some in H0, Ey. rewrite Hp in H0. injection H0 as <-.
    rewrite Hy, Ey. split; [reflexivity|apply nth_error_Some; congruence].
  - intros i acc _. destruct (get ifree i); simpl; reflexivity.
Qed.

(** ---- spreading the free parameters over the full vector ---- *)
Lemma spread_ok n ifree (x xall v : list T) : NoDup ifree -> spread n ifree x xall = Ok v ->
  length v = length xall /\
  (forall i p, i < n -> nth_error ifree i = Some p -> nth_error v p = nth_error x i /\ p < length xall /\ i < length x) /\
  (forall j, (forall i, i < n -> nth_error ifree i <> Some j) -> nth_error v j = nth_error xall j).
Proof.
  intros ND. apply (@for_ok (list T) (fun k v => length v = length xall /\
    (forall i p, i < k -> nth_error ifree i = Some p -> nth_error v p = nth_error x i /\ p < length xall /\ i < length x) /\
    (forall j, (forall i, i < k -> nth_error ifree i <> Some j) -> nth_error v j = nth_error xall j))).
  - repeat split; intros; lia.
  - intros k a b Hk (L & H1 & H2) E. inv E. inv E. apply get_some in H, H0. apply set_some in E. destruct E as (Hp & ->).
    rename x0 into y. rename x1 into p. rewrite upd_length. split; [assumption|]. split.
    + intros i q Hi Hq. rewrite nth_error_upd. destruct (Nat.eq_dec i k) as [->|Hne].
      * rewrite H0 in Hq. injection Hq as <-. rewrite Nat.eqb_refl. apply Nat.ltb_lt in Hp. rewrite Hp. apply Nat.ltb_lt in Hp. simpl.
        split; [congruence|]. split; [lia|apply nth_error_Some; congruence].
      * assert (p <> q). { intros ->. apply Hne. eapply NoDup_nth_error; [eassumption| |congruence]. apply nth_error_Some; congruence. }
        apply Nat.eqb_neq in H3. rewrite H3. simpl. apply H1; [lia|assumption].
    + intros j Hj. rewrite nth_error_upd. assert (p <> j) by (intros ->; apply (Hj k); [lia|assumption]).
      apply Nat.eqb_neq in H3. rewrite H3. simpl. apply H2. intros i Hi. apply Hj. lia.
Qed.

(** ---- the limited step ---- *)
Definition in_lims (l : limits T) (y : T) : Prop :=
  (limited0 l = true -> nltb N y (lim0 l) = false) /\ (limited1 l = true -> nltb N (lim1 l) y = false).
Definition lim_order (l : limits T) : Prop := limited0 l = true -> limited1 l = true -> nleb N (lim1 l) (lim0 l) = false.
Definition good_x (nfree : nat) (lims : option (list (limits T))) (x : list T) : Prop :=
  length x = nfree /\ forall q i l y, lims = Some q -> nth_error q i = Some l -> nth_error x i = Some y -> in_lims l y.

Hypothesis Hup : forall u y, nltb N u y = true -> nleb N (ulim1 N u) y = true.
Hypothesis Hlo : forall l y, nltb N y l = true -> nleb N y (llim1 N l) = true.
Hypothesis Hirr : forall a, nltb N a a = false.
Hypothesis Hord : forall a b, nleb N a b = false -> nltb N a b = false.

Lemma clamp_in l y : lim_order l ->
  let y1 := if limited1 l && nleb N (ulim1 N (lim1 l)) y then lim1 l else y in
  in_lims l (if limited0 l && nleb N y1 (llim1 N (lim0 l)) then lim0 l else y1).
Proof.
  intros O y1. split; intros L.
  - rewrite L. simpl. destruct (nleb N y1 (llim1 N (lim0 l))) eqn:C; [apply Hirr|].
    destruct (nltb N y1 (lim0 l)) eqn:D; [|reflexivity]. rewrite (Hlo D) in C. discriminate.
  - assert (H1 : nltb N (lim1 l) y1 = false).
    { unfold y1. rewrite L. simpl. destruct (nleb N (ulim1 N (lim1 l)) y) eqn:C; [apply Hirr|].
      destruct (nltb N (lim1 l) y) eqn:D; [|reflexivity]. rewrite (Hup D) in C. discriminate. }
    destruct (limited0 l) eqn:L0; simpl; [|assumption].
    destruct (nleb N y1 (llim1 N (lim0 l))); [|assumption]. apply Hord. apply O; assumption.
Qed.

Lemma move_ok n lims x wa1 alpha w' y : (forall i l, nth_error lims i = Some l -> lim_order l) ->
  move N n lims x wa1 alpha = Ok (w', y) ->
  length y = n /\ forall i l z, nth_error lims i = Some l -> nth_error y i = Some z -> in_lims l z.
Proof.
  intros O E. apply (@for_ok (list T * list T) (fun k '(w, y) => length y = k /\
    forall i l z, nth_error lims i = Some l -> nth_error y i = Some z -> in_lims l z)) in E; [assumption| |].
  - split; [reflexivity|]. intros [|i]; discriminate.
  - intros k [w a] [w1 b] Hk (L & H) E1. inv E1. inv E1. inv E1. inv E1. apply Ok_inj in E1.
    apply (f_equal snd) in E1. cbn [snd] in E1. subst b. apply get_some in H0.
    rewrite app_length. cbn [length]. split; [lia|]. intros i l z Hl Hz.
    destruct (Nat.lt_ge_cases i k).
    + rewrite nth_error_app1 in Hz by lia. eapply H; eassumption.
    + rewrite nth_error_app2 in Hz by lia. destruct (i - length a) as [|d] eqn:D; cbn [nth_error] in Hz; [|destruct d; discriminate].
      injection Hz as <-. assert (i = k) by lia. subst i. rewrite H0 in Hl. injection Hl as <-. apply clamp_in. eapply O; eassumption.
Qed.

(** ---- the two loops ---- *)
Variable enorm : list T -> T.
Variable funct : nat -> list T -> list T.
Variable interrupted : nat -> bool.
Variable m nfree : nat.
Variable ifree : list nat.
Variable lims : option (list (limits T)).
Variable conf : mp_config T.
Variable xall : list T.
Hypothesis Hfree : length ifree = nfree.
Hypothesis HND : NoDup ifree.
Hypothesis Horder : forall q i l, lims = Some q -> nth_error q i = Some l -> lim_order l.

Variable nonneg : T -> Prop.
Hypothesis Hnorm : forall v, nonneg (enorm v).
Hypothesis Htrans : forall a b c, nltb N a b = true -> nltb N b c = true -> nltb N a c = true.
Hypothesis Haccept : forall fnorm1 fnorm t1 t2, nonneg fnorm1 -> nonneg fnorm ->
  let actred := if nltb N (nmul N (p1 N) fnorm1) fnorm
    then let temp := ndiv N fnorm1 fnorm in nsub N (nofZ N 1) (nmul N temp temp) else nneg N (nofZ N 1) in
  let prered := nadd N (nmul N t1 t1) (ndiv N (nmul N t2 t2) (p5 N)) in
  nleb N (p0001 N) (if neqb N prered (nofZ N 0) then nofZ N 0 else ndiv N actred prered) = true ->
  nltb N fnorm1 fnorm = true.

(** the vector of all parameters when the free ones are [x] *)
Definition full (x v : list T) : Prop := spread nfree ifree x xall = Ok v.

(** a vector at which a numerical derivative is taken *)
Definition deriv_point (v : list T) : Prop :=
  exists x base j p temp h, good_x nfree lims x /\ full x base /\ nth_error ifree j = Some p /\ nth_error base p = Some temp /\
    nth_error x j = Some temp /\
    fd_step N (nsqrt N (dmax1 N (epsfcn conf) (MACHEP0 N))) lims j temp = Ok h /\ v = upd base p (nadd N temp h).
Definition entry_ok (e : why * list T * list T) : Prop :=
  let '(w, v, fv) := e in
  match w with
  | Start => v = xall
  | Trial | Final => exists x, good_x nfree lims x /\ full x v
  | Derivative => deriv_point v
  end.
Definition called (cs : log T) : Prop := forall k w v fv, nth_error (rev cs) k = Some (w, v, fv) -> fv = funct k v.
Variable x0 : list T.
Variable f0 : list T.
(** the best point so far is the starting point or a better trial point *)
Definition best (s : lm_state T) : Prop :=
  (s_x s = x0 /\ s_fvec s = f0 /\ s_fnorm s = enorm f0) \/
  (exists v, full (s_x s) v /\ In (Trial, v, s_fvec s) (s_log s) /\ s_fnorm s = enorm (s_fvec s) /\ nltb N (enorm (s_fvec s)) (enorm f0) = true).
Definition last_norm (s : lm_state T) : Prop :=
  s_fnorm1 s = nofZ N (-1) \/ exists v fv, In (Trial, v, fv) (s_log s) /\ s_fnorm1 s = enorm fv.
Definition inv_s (s : lm_state T) : Prop :=
  good_x nfree lims (s_x s) /\ Forall entry_ok (s_log s) /\ called (s_log s) /\ best s /\ last_norm s.

Lemma called_cons cs w v : called cs -> called ((w, v, funct (length cs) v) :: cs).
Proof.
  intros H k w' v' fv E. cbn [rev] in E. destruct (Nat.lt_ge_cases k (length cs)).
  - rewrite nth_error_app1 in E by (rewrite rev_length; lia). eapply H; eassumption.
  - rewrite nth_error_app2 in E by (rewrite rev_length; lia). rewrite rev_length in E.
    destruct (k - length cs) as [|d] eqn:D; cbn [nth_error] in E; [|destruct d; discriminate].
    injection E as <- <- <-. f_equal. lia.
Qed.

Lemma fdjac2_ok x xnew fvec cs fj cs' : good_x nfree lims x -> full x xnew -> Forall entry_ok cs -> called cs ->
  fdjac2 N funct m nfree ifree xnew fvec (epsfcn conf) lims cs = Ok (fj, cs') ->
  Forall entry_ok cs' /\ called cs' /\ exists new, cs' = new ++ cs.
Proof.
  intros G F Fc Cc E. unfold fdjac2 in E. apply bind_Ok in E. destruct E as ([[x1 fj1] cs1] & E & E2).
  apply Ok_inj in E2. apply (f_equal snd) in E2. cbn [snd] in E2. subst cs1.
  apply (@for_ok (list T * matrix T * log T) (fun k '(x, fj, cs') => x = xnew /\ Forall entry_ok cs' /\ called cs' /\ exists new, cs' = new ++ cs)) in E.
  - apply E.
  - repeat split; auto. exists []; reflexivity.
  - intros k [[a fa] ca] [[b fb] cb] Hk (-> & Fa & Cca & new & Hnew) E1.
    inv E1. inv E1. inv E1. inv E1. rename x2 into p, x3 into temp, x4 into h, x5 into v.
    unfold evaluate in E1. inv E1. inv E1. apply Ok_inj in E1.
    pose proof (f_equal (fun t => fst (fst t)) E1) as Eb. pose proof (f_equal snd E1) as Ec. cbn [fst snd] in Eb, Ec. subst cb.
    apply get_some in H. apply get_some in H0. apply set_some in H2. destruct H2 as (Hp & Hv).
    apply set_some in H3. destruct H3 as (Hp' & ->).
    split; [|split; [|split]].
    + subst b v. apply nth_ext with temp temp; [now rewrite !upd_length|]. intros i Hi. rewrite !upd_length in Hi.
      apply nth_error_nth. rewrite (nth_error_nth' xnew temp Hi) || idtac.
      rewrite !nth_error_upd, upd_length. destruct (p =? i) eqn:Q.
      * apply Nat.eqb_eq in Q. subst i. apply Nat.ltb_lt in Hp. rewrite Hp. simpl. f_equal. symmetry. now apply nth_error_nth.
      * simpl. now apply nth_error_nth'.
    + constructor; [|assumption]. cbn. exists x, xnew, k, p, temp, h.
      destruct (spread_ok HND F) as (_ & S1 & _). destruct (S1 k p Hk H) as (S2 & _).
      split; [exact G|]. split; [exact F|]. split; [exact H|]. split; [exact H0|]. split; [congruence|]. split; [exact H1|exact Hv].
    + now apply called_cons.
    + exists ((Derivative, v, funct (length ca) v) :: new). subst ca. reflexivity.
Qed.

Lemma outer_ok s s' e : inv_s s -> outer_step N enorm funct m nfree ifree lims conf xall s = Ok (s', e) ->
  inv_s s' /\ s_x s' = s_x s.
Proof.
  intros (G & F & C & B & L) E. unfold outer_step in E. inv E. rename x into xnew. apply bind_Ok in E. destruct E as ([fj cs] & E1 & E).
  destruct (fdjac2_ok G H F C E1) as (F' & C' & new & Hnew).
  assert (B' : forall s', s_x s' = s_x s -> s_fvec s' = s_fvec s -> s_fnorm s' = s_fnorm s -> s_log s' = cs -> best s').
  { intros t Ex Ef En El. destruct B as [(B1 & B2 & B3)|(v & B1 & B2 & B3 & B4)]; [left|right].
    - rewrite Ex, Ef, En. auto.
    - exists v. rewrite Ex, Ef, En, El, Hnew. repeat split; auto. apply in_or_app. now right. }
  assert (L' : forall s', s_fnorm1 s' = s_fnorm1 s -> s_log s' = cs -> last_norm s').
  { intros t Ex El. destruct L as [L|(v & fv & L1 & L2)]; [left; congruence|right].
    exists v, fv. rewrite Ex, El, Hnew. split; auto. apply in_or_app. now right. }
  assert (K : forall t, s_x t = s_x s -> s_fvec t = s_fvec s -> s_fnorm t = s_fnorm s -> s_fnorm1 t = s_fnorm1 s -> s_log t = cs ->
     inv_s t /\ s_x t = s_x s).
  { intros t Ex Ef En En1 El. split; [|assumption]. split; [now rewrite Ex|]. rewrite El. repeat split; auto. }
  inv E. apply bind_Ok in E. destruct E as ([[[fj2 ip] rd] wa2] & E2 & E). apply bind_Ok in E. destruct E as ([[dg xn] dl] & E3 & E).
  apply bind_Ok in E. destruct E as ([fj3 qtf] & E4 & E). inv E. destruct (negb x1).
  - apply Ok_inj in E. apply (f_equal fst) in E. cbn [fst] in E. subst s'. apply K; reflexivity.
  - inv E. destruct (nleb N x2 (gtol conf)); [|destruct (maxiter conf =? 0)%Z].
    + apply Ok_inj in E. apply (f_equal fst) in E. cbn [fst] in E. subst s'. apply K; reflexivity.
    + apply Ok_inj in E. apply (f_equal fst) in E. cbn [fst] in E. subst s'. apply K; reflexivity.
    + inv E. apply Ok_inj in E. apply (f_equal fst) in E. cbn [fst] in E. subst s'. apply K; reflexivity.
Qed.

Lemma inner_ok s s' nx : inv_s s -> inner_step N enorm funct interrupted nfree ifree lims conf xall s = Ok (s', nx) -> inv_s s'.
Proof.
  intros (G & F & C & B & L) E. unfold inner_step in E. apply bind_Ok in E. destruct E as ([[fj par] wa1] & E1 & E).
  inv E. rename x into wa1'. apply bind_Ok in E. destruct E as ([[w2 y] alpha] & E2 & E).
  assert (Gy : good_x nfree lims y).
  { unfold any_limits in E2. destruct lims as [q|] eqn:EL.
    - destruct (existsb (fun l => limited0 l || limited1 l) q) eqn:X.
      + apply bind_Ok in E2. destruct E2 as ([w3 al] & E3 & E2). apply bind_Ok in E2. destruct E2 as ([w4 y4] & E4 & E2).
        apply Ok_inj in E2. injection E2 as <- <- <-.
        destruct (move_ok (fun i l => Horder eq_refl) E4) as (Ly & Hy). split; [assumption|].
        intros q' i l z [= <-] Hl Hz. eapply Hy; eassumption.
      + inv E2. apply Ok_inj in E2. pose proof (f_equal (fun t => snd (fst t)) E2) as Ey. cbn [fst snd] in Ey. subst x.
        apply (@for_append _ (fun j => do xj <- get (s_x s) j; do v <- get wa1' j; Ok (nadd N xj v))) in H0.
        2:{ intros i acc _. destruct (get (s_x s) i); cbn [bind]; auto. destruct (get wa1' i); reflexivity. }
        split; [apply H0|]. intros q' i l z [= <-] Hl Hz.
        assert (HF : limited0 l || limited1 l = false).
        { destruct (limited0 l || limited1 l) eqn:Q; [|reflexivity]. rewrite <- X. symmetry. apply existsb_exists. exists l. split; [|assumption].
          eapply nth_error_In; eassumption. }
        apply orb_false_iff in HF. destruct HF as (A1 & A2). split; intros A3; congruence.
    - inv E2. apply Ok_inj in E2. pose proof (f_equal (fun t => snd (fst t)) E2) as Ey. cbn [fst snd] in Ey. subst x.
      apply (@for_append _ (fun j => do xj <- get (s_x s) j; do v <- get wa1' j; Ok (nadd N xj v))) in H0.
      2:{ intros i acc _. destruct (get (s_x s) i); cbn [bind]; auto. destruct (get wa1' i); reflexivity. }
      split; [apply H0|]. discriminate. }
  clear E2. inv E. rename x into wa3. inv E. rename x into xnew. unfold evaluate in E. cbn zeta in E.
  apply bind_Ok in E. destruct E as (wr & E3 & E).
  set (fv := funct (length (s_log s)) xnew) in *.
  assert (HF' : Forall entry_ok ((Trial, xnew, fv) :: s_log s)) by (constructor; [exists y; split; assumption|assumption]).
  assert (HC' : called ((Trial, xnew, fv) :: s_log s)) by (now apply called_cons).
  match type of E with context [let '(_, _) := ?X in _] => destruct X as [dl pr] end.
  apply bind_Ok in E. destruct E as (t & E4 & E). apply Ok_inj in E. apply (f_equal fst) in E. cbn [fst] in E. subst t.
  assert (HL : In (Trial, xnew, fv) ((Trial, xnew, fv) :: s_log s)) by (left; reflexivity).
  match type of E4 with (if ?cnd then _ else _) = _ => destruct cnd eqn:Q end.
  - inv E4. apply Ok_inj in E4. subst s'.
    apply Haccept in Q; [|apply Hnorm|destruct B as [(_ & _ & ->)|(v & _ & _ & -> & _)]; apply Hnorm].
    split; [exact Gy|]. split; [exact HF'|]. split; [exact HC'|]. split.
    + right. exists xnew. split; [exact H1|]. split; [exact HL|]. split; [reflexivity|]. cbn [s_fvec].
      destruct B as [(_ & _ & B3)|(v & _ & _ & B3 & B4)].
      * now rewrite <- B3.
      * eapply Htrans; [|exact B4]. now rewrite <- B3.
    + right. exists xnew, fv. split; [exact HL|reflexivity].
  - apply Ok_inj in E4. subst s'. split; [exact G|]. split; [exact HF'|]. split; [exact HC'|]. split.
    + destruct B as [B|(v & B1 & B2 & B3 & B4)]; [left; exact B|right]. exists v. repeat split; auto. right. exact B2.
    + right. exists xnew, fv. split; [exact HL|reflexivity].
Qed.

Lemma run_ok f : forall inside s s' cl info, inv_s s ->
  run N enorm funct interrupted m nfree ifree lims conf xall f inside s = Ok (s', cl, info) -> inv_s s'.
Proof.
  induction f as [|f IH]; intros inside s s' cl info I E; [discriminate|]. cbn [run] in E. destruct inside.
  - apply bind_Ok in E. destruct E as ([t n] & E1 & E). pose proof (inner_ok I E1) as I'. destruct n.
    + eapply IH; eassumption.
    + eapply IH; eassumption.
    + apply Ok_inj in E. pose proof (f_equal (fun t => fst (fst t)) E) as Et. cbn [fst] in Et. subst t. exact I'.
  - apply bind_Ok in E. destruct E as ([t e] & E1 & E). pose proof (proj1 (outer_ok I E1)) as I'. destruct e as [[c i]|].
    + apply Ok_inj in E. pose proof (f_equal (fun t => fst (fst t)) E) as Et. cbn [fst] in Et. subst t. exact I'.
    + eapply IH; eassumption.
Qed.
End P.

(** ---- mpfit ---- *)
Section M.
Variable T : Type.
Variable N : Num T.
Variable enorm : list T -> T.
Variable funct : nat -> list T -> list T.
Variable interrupted : nat -> bool.
Variable fuel : nat.
Hypothesis Hup : forall u y, nltb N u y = true -> nleb N (ulim1 N u) y = true.
Hypothesis Hlo : forall l y, nltb N y l = true -> nleb N y (llim1 N l) = true.
Hypothesis Hirr : forall a, nltb N a a = false.
Hypothesis Hord : forall a b, nleb N a b = false -> nltb N a b = false.
Variable nonneg : T -> Prop.
Hypothesis Hnorm : forall v, nonneg (enorm v).
Hypothesis Htrans : forall a b c, nltb N a b = true -> nltb N b c = true -> nltb N a c = true.
Hypothesis Haccept : forall fnorm1 fnorm t1 t2, nonneg fnorm1 -> nonneg fnorm ->
  let actred := if nltb N (nmul N (p1 N) fnorm1) fnorm
    then let temp := ndiv N fnorm1 fnorm in nsub N (nofZ N 1) (nmul N temp temp) else nneg N (nofZ N 1) in
  let prered := nadd N (nmul N t1 t1) (ndiv N (nmul N t2 t2) (p5 N)) in
  nleb N (p0001 N) (if neqb N prered (nofZ N 0) then nofZ N 0 else ndiv N actred prered) = true ->
  nltb N fnorm1 fnorm = true.

Variable xall : list T.
Variable pars : option (list (limits T)).

(** a vector the numerical derivatives use: one free parameter of a vector
    within the limits is moved *)
Definition moved (conf : mp_config T) (v : list T) : Prop :=
  exists base j l temp h, keeps pars xall base /\ within (nltb N) pars base /\ nth_error base j = Some temp /\
    v = upd base j (nadd N temp h) /\
    match pars with
    | None => True
    | Some ps => nth_error ps j = Some l /\ fixed l = false /\
        fd_step N (nsqrt N (dmax1 N (epsfcn conf) (MACHEP0 N))) (Some [l]) 0 temp = Ok h
    end.
Definition entry_good (conf : mp_config T) (e : why * list T * list T) : Prop :=
  let '(w, v, _) := e in
  match w with Start => v = xall | Trial | Final => keeps pars xall v /\ within (nltb N) pars v | Derivative => moved conf v end.
(** the outcome of a run that was not rejected at once *)
Definition outcome (config : mp_config T) (v : list T) (r : option (mp_result T)) (cs : log T) : Prop :=
  within (nltb N) pars xall /\ within (nltb N) pars v /\
  Forall (entry_good (merge_config N config)) cs /\
  (forall k w u fu, nth_error (rev cs) k = Some (w, u, fu) -> fu = funct k u) /\
  let f0 := funct 0 xall in
  (v = xall \/ exists fv, In (Trial, v, fv) cs /\ nltb N (enorm fv) (enorm f0) = true) /\
  forall R, r = Some R -> orignorm R = nmul N (enorm f0) (enorm f0) /\
    exists fv b, ((v = xall /\ fv = f0) \/ In (Trial, v, fv) cs) /\
      (b = nofZ N (-1) \/ exists u fu, In (Trial, u, fu) cs /\ b = enorm fu) /\
      bestnorm R = nmul N (dmax1 N (enorm fv) b) (dmax1 N (enorm fv) b).

Lemma full_spread nfree ifree x v : NoDup ifree -> length ifree = nfree ->
  (forall j, In j ifree <-> j < length xall /\ is_free pars j) ->
  spread nfree ifree x xall = Ok v -> keeps pars xall v.
Proof.
  intros ND L Hin E. destruct (spread_ok ND E) as (Lv & _ & H2). split; [exact Lv|].
  intros ps j p Hp Hj F. apply H2. intros i _ Hi. apply nth_error_In in Hi. apply Hin in Hi. destruct Hi as (_ & Hi).
  rewrite Hp in Hi. destruct Hi as (q & Hq & Fq). congruence.
Qed.

Lemma mpfit_ok (m npar : Z) (config : mp_config T) info v r cs : length xall = Z.to_nat npar ->
  mpfit N enorm funct interrupted fuel m npar xall pars config = Ok (info, v, r, cs) ->
  keeps pars xall v /\
  ((r = None /\ cs = [] /\ v = xall /\
    (info = MP_ERR_NPOINTS \/ info = MP_ERR_NFREE \/ info = MP_ERR_PARAM \/ info = MP_ERR_DOF \/
     exists ps, pars = Some ps /\ exists j p x, nth_error ps j = Some p /\ nth_error xall j = Some x /\
       ((info = MP_ERR_BOUNDS /\ empty_interval (nleb N) p) \/ (info = MP_ERR_INITBOUNDS /\ starts_outside (nltb N) p x)))) \/
   outcome config v r cs).
Proof.
  intros Lx E.
  assert (K0 : keeps pars xall xall) by (split; auto).
  unfold mpfit in E.
  assert (Early : forall e, e = info -> Ok (e, xall, None, []) = Ok (info, v, r, cs) -> v = xall /\ r = None /\ cs = []).
  { intros e _ Q. apply Ok_inj in Q. pose proof (f_equal (fun t => snd (fst (fst t))) Q). pose proof (f_equal (fun t => snd (fst t)) Q).
    pose proof (f_equal snd Q). cbn [fst snd] in *. auto. }
  assert (Ei : forall e, Ok (e, xall, None, []) = Ok (info, v, r, cs) -> e = info).
  { intros e Q. apply Ok_inj in Q. exact (f_equal (fun t => fst (fst (fst t))) Q). }
  assert (EE : forall e, Ok (e, xall, None, []) = Ok (info, v, r, cs) -> v = xall /\ r = None /\ cs = [] /\ info = e).
  { intros e Q. pose proof (Ei e Q) as Q1. destruct (Early e Q1 Q) as (? & ? & ?). auto. }
  clear Early Ei.
  destruct (m <=? 0)%Z. { destruct (EE _ E) as (-> & -> & -> & ->). split; [exact K0|]. left. repeat split; auto. }
  destruct (npar <=? 0)%Z. { destruct (EE _ E) as (-> & -> & -> & ->). split; [exact K0|]. left. repeat split; auto. }
  cbv zeta in E. inv E. rename x into ifree. rewrite <- Lx in H, E.
  destruct (free_indices_ok H) as (ND & Hin & Hlen).
  destruct (length ifree =? 0). { destruct (EE _ E) as (-> & -> & -> & ->). split; [exact K0|]. left. repeat split; auto. }
  apply bind_Ok in E. destruct E as (err & Eerr & E). destruct err as [e|].
  { destruct (EE _ E) as (-> & -> & -> & ->). split; [exact K0|]. left. repeat split; auto. right. right. right. right.
    destruct pars as [ps|]; [|discriminate]. exists ps. split; [reflexivity|].
    apply check_limits_ok in Eerr. destruct Eerr as (j & p & x & _ & Hp & Hx & Hc). exists j, p, x. auto. }
  assert (Hchk : forall ps, pars = Some ps -> forall j p x, nth_error ps j = Some p -> nth_error xall j = Some x ->
      ~ empty_interval (nleb N) p /\ ~ starts_outside (nltb N) p x).
  { intros ps Hps j p x Hp Hx. rewrite Hps in Eerr. apply check_limits_ok in Eerr. eapply Eerr; eauto. apply nth_error_Some. congruence. }
  apply bind_Ok in E. destruct E as (lims & El & E).
  assert (Hlims : match pars with None => lims = None | Some ps => exists q, lims = Some q /\ free_limits ifree ps = Ok q end).
  { destruct pars as [ps|]; [|now apply Ok_inj in El]. inv El. apply Ok_inj in El. exists x. auto. }
  clear El.
  match type of E with (if ?c then _ else _) = _ => destruct c end.
  { destruct (EE _ E) as (-> & -> & -> & ->). split; [exact K0|]. left. repeat split; auto. }
  match type of E with (if ?c then _ else _) = _ => destruct c end.
  { destruct (EE _ E) as (-> & -> & -> & ->). split; [exact K0|]. left. repeat split; auto. }
  unfold evaluate in E. cbn [length] in E. apply bind_Ok in E. destruct E as (x0 & Ex0 & E).
  apply bind_Ok in E. destruct E as ([[s cleanup] info'] & Erun & E).
  apply (@for_append _ (fun i => do p <- get ifree i; get xall p)) in Ex0.
  2:{ intros i acc _. destruct (get ifree i); cbn [bind]; reflexivity. }
  destruct Ex0 as (Lx0 & Hx0).
  assert (Hx0' : forall i p, nth_error ifree i = Some p -> nth_error x0 i = nth_error xall p).
  { intros i p Hp. assert (i < length ifree) by (apply nth_error_Some; congruence). destruct (Hx0 i H0) as (y & Ey & Hy).
    inv Ey. apply get_some in H1, Ey. congruence. }
  (* limits of the free parameters *)
  assert (Hl : forall q i l, lims = Some q -> nth_error q i = Some l -> exists ps p, pars = Some ps /\ nth_error ifree i = Some p /\
       nth_error ps p = Some l /\ fixed l = false).
  { intros q i l Hq Hi. destruct pars as [ps|]; [|congruence]. destruct Hlims as (q' & Hq' & Hf). rewrite Hq in Hq'. injection Hq' as <-.
    destruct (free_limits_ok Hf) as (Lq & Hf').
    assert (i < length ifree) by (rewrite <- Lq; apply nth_error_Some; congruence).
    destruct (nth_error ifree i) as [p|] eqn:Ep; [|apply nth_error_None in Ep; lia].
    destruct (Hf' i p Ep) as (A & _). exists ps, p. split; [reflexivity|]. split; [reflexivity|]. rewrite <- A. split; [assumption|].
    assert (In p ifree) by (eapply nth_error_In; eassumption). apply Hin in H1. destruct H1 as (_ & l' & Hl' & Fl'). congruence. }
  assert (Hin_free : forall p, In p ifree -> p < length xall) by (intros p Hp; apply Hin in Hp; apply Hp).
  assert (HO : forall q i l, lims = Some q -> nth_error q i = Some l -> lim_order N l).
  { intros q i l Hq Hi. destruct (Hl q i l Hq Hi) as (ps & p & Hps & Hp & Hpl & Fl).
    assert (p < length xall) by (apply Hin_free; eapply nth_error_In; eassumption).
    destruct (nth_error xall p) as [x|] eqn:Ex; [|apply nth_error_None in Ex; lia].
    intros A B. destruct (nleb N (lim1 l) (lim0 l)) eqn:C; [|reflexivity].
    exfalso. apply (proj1 (Hchk ps Hps p l x Hpl Ex)). repeat split; assumption. }
  assert (HW0 : within (nltb N) pars xall).
  { intros ps j p x Hps Hp Hx F. destruct (Hchk ps Hps j p x Hp Hx) as (_ & B). split; intros A.
    - destruct (nltb N x (lim0 p)) eqn:C; [|reflexivity]. exfalso. apply B. left; auto.
    - destruct (nltb N (lim1 p) x) eqn:C; [|reflexivity]. exfalso. apply B. right; auto. }
  assert (G0 : good_x N (length ifree) lims x0).
  { split; [exact Lx0|]. intros q i l y Hq Hi Hy. destruct (Hl q i l Hq Hi) as (ps & p & Hps & Hp & Hpl & Fl).
    rewrite (Hx0' i p Hp) in Hy. exact (HW0 ps p l y Hps Hpl Hy Fl). }
  assert (GW : forall x u, good_x N (length ifree) lims x -> spread (length ifree) ifree x xall = Ok u -> keeps pars xall u /\ within (nltb N) pars u).
  { intros x u G S. split; [eapply full_spread; eauto|]. intros ps j p y Hps Hp Hy F.
    destruct (spread_ok ND S) as (Lu & S1 & _).
    assert (Hj : In j ifree). { apply Hin. split; [rewrite <- Lu; apply nth_error_Some; congruence|]. rewrite Hps. exists p. auto. }
    apply In_nth_error in Hj. destruct Hj as (i & Hi). assert (Hi' : i < length ifree) by (apply nth_error_Some; congruence).
    destruct (S1 i j Hi' Hi) as (Sx & _). rewrite Hps in Hlims. destruct Hlims as (q & Hq & Hf). destruct (free_limits_ok Hf) as (_ & Hf').
    destruct (Hf' i j Hi) as (A & _). destruct G as (_ & G). apply (G q i p y Hq); congruence. }
  assert (I0 : inv_s N enorm funct (length ifree) ifree lims (merge_config N config) xall x0 (funct 0 xall)
     (mkLM x0 (funct 0 xall) (enorm (funct 0 xall)) (nofZ N (-1)) (nofZ N 0) (nofZ N 0) (nofZ N (-1)) 1 (zeros N (Z.to_nat npar)) [] []
        (zeros N (length ifree)) (nofZ N 0) [(Start, xall, funct 0 xall)])).
  { split; [exact G0|]. split; [constructor; [reflexivity|constructor]|]. split.
    - intros k w u fu Hk. cbn in Hk. destruct k as [|[|k]]; cbn in Hk; [|discriminate|discriminate]. injection Hk as <- <- <-. reflexivity.
    - split; [left; repeat split|left; reflexivity]. }
  rewrite Lx in Erun.
  pose proof (run_ok Hup Hlo Hirr Hord eq_refl ND HO Hnorm Htrans Haccept I0 Erun) as (G & F & C & B & L).
  assert (Fgood : forall cs', Forall (entry_ok N (length ifree) ifree lims (merge_config N config) xall) cs' -> Forall (entry_good (merge_config N config)) cs').
  { intros cs' Hf. eapply Forall_impl; [|exact Hf]. intros [[w u] fu] He. destruct w; cbn [entry_ok entry_good] in He |- *.
    - exact He.
    - destruct He as (x & base & j & p & temp & h & Gx & Fx & Hj & Hb & Hxj & Hs & Hu).
      destruct (GW x base Gx Fx) as (K1 & K2).
      assert (Hip : In p ifree) by (eapply nth_error_In; eassumption).
      unfold moved. destruct pars as [ps|] eqn:Epars.
      + destruct Hlims as (q & Hq & Hf'). destruct (free_limits_ok Hf') as (Lq & Hf''). destruct (Hf'' j p Hj) as (A & A2).
        destruct (nth_error ps p) as [l|] eqn:El; [|apply nth_error_None in El; lia].
        exists base, p, l, temp, h. split; [exact K1|]. split; [exact K2|]. split; [exact Hb|]. split; [exact Hu|].
        split; [exact El|]. destruct (Hl q j l Hq A) as (ps' & p' & Hps' & Hp' & Hl' & Fl). split; [exact Fl|].
        rewrite Hq in Hs. unfold fd_step in Hs |- *. cbn [get nth_error]. unfold get in Hs. rewrite A in Hs. exact Hs.
      + exists base, p, (mkLim false false false temp temp), temp, h.
        split; [exact K1|]. split; [exact K2|]. split; [exact Hb|]. split; [exact Hu|exact I].
    - destruct He as (x & Gx & Fx). eapply GW; eassumption.
    - destruct He as (x & Gx & Fx). eapply GW; eassumption. }
  assert (Hx0full : forall u, spread (length ifree) ifree x0 xall = Ok u -> u = xall).
  { intros u S. destruct (spread_ok ND S) as (Lu & S1 & S2). apply CmdLine_Proof.list_ext. intros j.
    destruct (in_dec Nat.eq_dec j ifree) as [Hj|Hj].
    - apply In_nth_error in Hj. destruct Hj as (i & Hi). assert (Hi' : i < length ifree) by (apply nth_error_Some; congruence).
      destruct (S1 i j Hi' Hi) as (Sx & _). rewrite Sx. now apply Hx0'.
    - apply S2. intros i _ Hi. apply Hj. eapply nth_error_In; eassumption. }
  destruct cleanup.
  - (* CLEANUP: the parameters are untouched *)
    apply Ok_inj in E. pose proof (f_equal (fun t => snd (fst (fst t))) E) as Q1. pose proof (f_equal (fun t => snd (fst t)) E) as Q2.
    pose proof (f_equal snd E) as Q3. cbn [fst snd] in Q1, Q2, Q3. subst v r cs. split; [exact K0|]. right.
    split; [exact HW0|]. split; [exact HW0|]. split; [now apply Fgood|]. split; [exact C|]. split; [left; reflexivity|discriminate].
  - inv E. rename x into xout. inv E. inv E. inv E. rename x into peg, x1 into cov, x2 into xe.
    destruct (GW (s_x s) xout G H0) as (K1 & K2).
    apply Ok_inj in E. pose proof (f_equal (fun t => snd (fst (fst t))) E) as Q1. pose proof (f_equal (fun t => snd (fst t)) E) as Q2.
    pose proof (f_equal snd E) as Q3. cbn [fst snd] in Q1, Q2, Q3. subst v.
    split; [exact K1|]. right. split; [exact HW0|]. split; [exact K2|].
    assert (Hcs : exists new, cs = new ++ s_log s /\ Forall (entry_ok N (length ifree) ifree lims (merge_config N config) xall) cs /\ called funct cs).
    { destruct ((0 <? nprint (merge_config N config))%Z && (0 <? info')%Z); cbn [evaluate snd] in Q3; subst cs.
      - exists [(Final, xout, funct (length (s_log s)) xout)]. split; [reflexivity|]. split.
        + constructor; [exists (s_x s); split; assumption|assumption].
        + apply (@called_cons T funct (length ifree) ifree); auto.
      - exists []. split; [reflexivity|]. split; assumption. }
    destruct Hcs as (new & Hnew & Fcs & Ccs). split; [now apply Fgood|]. split; [exact Ccs|]. cbv zeta.
    assert (Inlog : forall e, In e (s_log s) -> In e cs) by (intros e He; rewrite Hnew; apply in_or_app; now right).
    assert (HB : (xout = xall /\ s_fvec s = funct 0 xall /\ s_fnorm s = enorm (funct 0 xall)) \/
       (In (Trial, xout, s_fvec s) cs /\ s_fnorm s = enorm (s_fvec s) /\ nltb N (enorm (s_fvec s)) (enorm (funct 0 xall)) = true)).
    { destruct B as [(B1 & B2 & B3)|(u & B1 & B2 & B3 & B4)].
      - left. rewrite B1 in H0. apply Hx0full in H0. auto.
      - right. unfold full in B1. rewrite H0 in B1. apply Ok_inj in B1. subst u. auto. }
    split.
    + destruct HB as [(-> & _)|(B1 & B2 & B3)]; [left; reflexivity|right; exists (s_fvec s); auto].
    + intros R HR. rewrite HR in Q2. clear HR. injection Q2 as <-. cbn [orignorm bestnorm]. split; [reflexivity|].
      exists (s_fvec s), (s_fnorm1 s). split; [destruct HB as [(-> & -> & _)|(B1 & _)]; auto|]. split.
      * destruct L as [L|(u & fu & L1 & L2)]; [left; exact L|right; exists u, fu; auto].
      * destruct HB as [(_ & -> & ->)|(_ & -> & _)]; reflexivity.
Qed.
End M.
