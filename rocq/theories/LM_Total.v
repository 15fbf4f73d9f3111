(** mpfit(), solvers/mpfit.cpp:352-1097, in any arithmetic: every array access of the
    two loops is inside its array, whatever values the deviates have. *)
From Coq Require Import ZArith List Bool Lia Permutation.
From Verif Require Import Base Num Stats_Model DE_Model LM_Model DE_Proof LM_Proof LM_QR LM_Solve LM_Lmpar.
Import ListNotations.
Set Implicit Arguments. Unset Strict Implicit.
Local Open Scope nat_scope.

Lemma for_total {B} (P : B -> Prop) n (f : nat -> B -> res B) s : P s -> (forall i s, i < n -> P s -> exists s', f i s = Ok s' /\ P s') ->
  exists s', for_ n f s = Ok s' /\ P s'.
Proof. intros H0 H. exact (@for_inv B (fun _ s => P s) f n s H0 H). Qed.

Section G.
Variable T : Type.
Variable N : Num T.
Variable enorm : list T -> T.
Variable funct : nat -> list T -> list T.
Variable interrupted : nat -> bool.
Notation z := (nofZ N 0).
Notation one := (nofZ N 1).
Infix "+!" := (nadd N) (at level 50, left associativity).
Infix "*!" := (nmul N) (at level 40, left associativity).
Notation en := (@en T N).
Notation vn := (@vn T N).
Notation dg := (@dg T N).

Variable m n : nat.
Hypothesis NM : n <= m.
Hypothesis Hf : forall k v, length (funct k v) = m.

Lemma spread_total ifree x (xall : list T) : length ifree = n -> n <= length x -> (forall j, j < n -> nth j ifree 0 < length xall) ->
  exists v, spread n ifree x xall = Ok v /\ length v = length xall.
Proof.
  intros L Lx B. unfold spread. apply (@for_total (list T) (fun v => length v = length xall)); [reflexivity|]. intros i v Hi Lv.
  rewrite (@get_vn T N x i) by lia. cbn [bind]. rewrite (@get_nth _ 0 ifree i) by lia. cbn [bind]. rewrite set_lt by (rewrite Lv; auto).
  eexists. split; [reflexivity|]. now rewrite upd_length.
Qed.

Definition lims_fit (lims : option (list (limits T))) : Prop := match lims with None => True | Some q => n <= length q end.
Lemma fd_step_total eps lims j temp : lims_fit lims -> j < n -> exists h, fd_step N eps lims j temp = Ok h.
Proof.
  intros L J. unfold fd_step. destruct lims as [q|]; cbn [bind]; [|eexists; reflexivity]. cbn in L.
  destruct (nth_error q j) as [l|] eqn:E; [|apply nth_error_None in E; lia]. unfold get. rewrite E. cbn [bind]. eexists; reflexivity.
Qed.

Lemma upd_back (x : list T) p h : p < length x -> upd (upd x p h) p (vn x p) = x.
Proof.
  intros H. apply nth_ext with z z; [now rewrite !upd_length|]. intros i Hi. rewrite !nth_upd, upd_length. destruct (Nat.eqb_spec p i) as [->|].
  - assert (i <? length x = true) as -> by (now apply Nat.ltb_lt). reflexivity.
  - reflexivity.
Qed.

Lemma nth_error_last {A} (l : list A) x : nth_error (l ++ [x]) (length l) = Some x.
Proof. rewrite nth_error_app2, Nat.sub_diag by lia. reflexivity. Qed.

Definition fd_point (ifree : list nat) (x : list T) (j : nat) (h : T) : list T := upd x (nth j ifree 0) (vn x (nth j ifree 0) +! h).
Lemma fdjac2_total ifree x fvec ef lims cs : length ifree = n -> (forall j, j < n -> nth j ifree 0 < length x) -> m <= length fvec -> lims_fit lims ->
  exists J new, fdjac2 N funct m n ifree x fvec ef lims cs = Ok (J, rev new ++ cs) /\ shape m n J /\ length new = n /\
    forall j, j < n -> exists h, fd_step N (nsqrt N (dmax1 N ef (MACHEP0 N))) lims j (vn x (nth j ifree 0)) = Ok h /\
      nth_error new j = Some (Derivative, fd_point ifree x j h, funct (length cs + j) (fd_point ifree x j h)) /\
      forall i, i < m -> vn (nth j J []) i = ndiv N (nsub N (vn (funct (length cs + j) (fd_point ifree x j h)) i) (vn fvec i)) h.
Proof.
  intros L B Lf Hl. unfold fdjac2. cbv zeta. set (eps := nsqrt N (dmax1 N ef (MACHEP0 N))).
  match goal with |- context [@for_ ?St n ?body ?s0] =>
    destruct (@for_inv St (fun e '(x1, J, c1) => x1 = x /\ shape m e J /\ exists new, c1 = rev new ++ cs /\ length new = e /\
      forall j, j < e -> exists h, fd_step N eps lims j (vn x (nth j ifree 0)) = Ok h /\
      nth_error new j = Some (Derivative, fd_point ifree x j h, funct (length cs + j) (fd_point ifree x j h)) /\
      forall i, i < m -> vn (nth j J []) i = ndiv N (nsub N (vn (funct (length cs + j) (fd_point ifree x j h)) i) (vn fvec i)) h) body n s0) as ([[x1 J] c1] & E & Ex & SJ & new & Ec & Ln & P) end.
  - split; [reflexivity|]. split; [split; [reflexivity|constructor]|]. exists []. repeat split; auto. intros j Hj. lia.
  - intros e [[x1 J] c1] He (-> & SJ & new & -> & Ln & P). rewrite (@get_nth _ 0 ifree e) by lia. cbn [bind].
    set (p := nth e ifree 0). assert (Hp : p < length x) by (apply B; exact He). rewrite (@get_vn T N x p) by exact Hp. cbn [bind].
    destruct (@fd_step_total eps lims e (vn x p) Hl He) as (h & Eh). rewrite Eh. cbn [bind]. rewrite set_lt by exact Hp. cbn [bind].
    unfold evaluate. set (v := upd x p (vn x p +! h)). set (cl := length (rev new ++ cs)). assert (Hcl : cl = length cs + e) by (unfold cl; rewrite app_length, rev_length; lia).
    rewrite set_lt by (unfold v; rewrite upd_length; exact Hp). cbn [bind].
    rewrite (@build_ok T (fun i => ndiv N (nsub N (vn (funct cl v) i) (vn fvec i)) h)).
    2:{ intros i w Hi. rewrite (@get_vn T N (funct cl v) i) by (rewrite Hf; exact Hi). cbn [bind]. rewrite (@get_vn T N fvec i) by lia. reflexivity. }
    cbn [bind]. eexists. split; [reflexivity|]. unfold v at 1. split; [now apply upd_back|]. split.
    + destruct SJ as (LJ & FJ). split; [rewrite app_length; cbn; lia|]. apply Forall_app. split; [exact FJ|]. constructor; [|constructor]. rewrite map_length, seq_length. reflexivity.
    + exists (new ++ [(Derivative, v, funct cl v)]). rewrite rev_app_distr. cbn [rev app]. split; [reflexivity|]. split; [rewrite app_length; cbn; lia|].
      destruct SJ as (LJ & _). intros j Hj. destruct (Nat.eq_dec j e) as [->|Ne].
      * exists h. split; [exact Eh|]. unfold fd_point. fold p. fold v. rewrite <- Hcl. split; [rewrite <- Ln; apply nth_error_last|].
        intros i Hi. rewrite app_nth2 by lia. rewrite LJ, Nat.sub_diag. cbn [nth]. exact (@vn_map T N _ _ _ Hi).
      * destruct (P j ltac:(lia)) as (h' & A1 & A2 & A3). exists h'. split; [exact A1|]. split; [rewrite nth_error_app1 by lia; exact A2|].
        intros i Hi. rewrite app_nth1 by lia. now apply A3.
  - rewrite E. cbn [bind]. subst x1 c1. exists J, new. split; [reflexivity|]. split; [exact SJ|]. split; [exact Ln|exact P].
Qed.

Definition lpeg (q : list (limits T)) (x : list T) (j : nat) : bool :=
  match nth_error q j with Some l => limited0 l && neqb N (vn x j) (lim0 l) | None => false end.
Definition upeg (q : list (limits T)) (x : list T) (j : nat) : bool :=
  match nth_error q j with Some l => limited1 l && neqb N (vn x j) (lim1 l) | None => false end.
Lemma peg_total q x fvec J : n <= length q -> n <= length x -> m <= length fvec -> shape m n J ->
  exists J', peg_columns N m n q x fvec J = Ok J' /\ shape m n J' /\
    forall j, j < n -> exists sum, (lpeg q x j || upeg q x j = true -> dot N fvec (nth j J []) 0 m = Ok sum) /\
      nth j J' [] = if (lpeg q x j && nltb N z sum) || (upeg q x j && nltb N sum z) then zeros N m else nth j J [].
Proof.
  intros Lq Lx Lf Sh. unfold peg_columns.
  match goal with |- context [for_ n ?body J] => destruct (@for_inv (matrix T) (fun e J' => shape m n J' /\ (forall j, e <= j -> nth j J' [] = nth j J []) /\
    forall j, j < e -> exists sum, (lpeg q x j || upeg q x j = true -> dot N fvec (nth j J []) 0 m = Ok sum) /\
      nth j J' [] = if (lpeg q x j && nltb N z sum) || (upeg q x j && nltb N sum z) then zeros N m else nth j J []) body n J) as (J' & E & S' & _ & P) end.
  - split; [exact Sh|]. split; [reflexivity|]. intros; lia.
  - intros e J1 He (S1 & Hi & P). destruct (nth_error q e) as [l|] eqn:El; [|apply nth_error_None in El; lia].
    assert (Hget : get q e = Ok l) by (unfold get; now rewrite El). rewrite Hget. cbn [bind]. rewrite (@get_vn T N x e) by lia. cbn [bind].
    pose proof (proj1 S1) as L1. rewrite (@get_nth _ [] J1 e) by lia. cbn [bind]. rewrite (Hi e) by lia. cbv zeta.
    assert (Lc : length (nth e J []) = m) by (eapply shape_col; eauto).
    destruct (@dot_ok T N fvec (nth e J []) 0 m) as (s & Es); [lia|lia|].
    assert (El' : limited0 l && neqb N (vn x e) (lim0 l) = lpeg q x e) by (unfold lpeg; now rewrite El).
    assert (Eu' : limited1 l && neqb N (vn x e) (lim1 l) = upeg q x e) by (unfold upeg; now rewrite El). rewrite El', Eu'.
    assert (Hz : length (zeros N m) = m) by apply repeat_length.
    exists (if (lpeg q x e && nltb N z (if lpeg q x e || upeg q x e then s else z)) || (upeg q x e && nltb N (if lpeg q x e || upeg q x e then s else z) z) then upd J1 e (zeros N m) else J1).
    split; [|split; [|split]].
    + destruct (lpeg q x e), (upeg q x e); cbn [orb andb]; rewrite ?Es; cbn [bind];
        repeat match goal with |- context [if ?b then _ else _] => destruct b; cbn [bind orb] end; rewrite ?set_lt by (rewrite ?upd_length; lia); cbn [bind]; rewrite ?set_lt by (rewrite ?upd_length; lia); try reflexivity.
      all: f_equal; apply nth_ext with [] []; [now rewrite !upd_length|]; intros i Hi'; rewrite !nth_upd, !upd_length; destruct (e =? i), (e <? length J1); reflexivity.
    + match goal with |- context [if ?b then _ else _] => destruct b end; [apply shape_upd; assumption|exact S1].
    + intros j Hj. match goal with |- context [if ?b then _ else _] => destruct b end; [|apply Hi; lia]. rewrite nth_upd. destruct (Nat.eqb_spec e j); [lia|]. cbn [andb]. apply Hi. lia.
    + intros j Hj. destruct (Nat.eq_dec j e) as [->|Ne].
      * exists (if lpeg q x e || upeg q x e then s else z). split; [intros ->; exact Es|].
        match goal with |- context [if ?b then upd _ _ _ else _] => destruct b end; [|apply Hi; lia]. rewrite nth_upd, Nat.eqb_refl, L1. assert (e <? n = true) as -> by (now apply Nat.ltb_lt). reflexivity.
      * destruct (P j ltac:(lia)) as (sum & A & B). exists sum. split; [exact A|]. rewrite <- B.
        match goal with |- context [if ?b then upd _ _ _ else _] => destruct b end; [|reflexivity]. rewrite nth_upd. destruct (Nat.eqb_spec e j); [lia|]. reflexivity.
  - exists J'. auto.
Qed.

(** ---- scaling factors ---- *)
Lemma diag_total (g : nat -> T -> T) ifree (wa2 diag : list T) (f : nat -> list T -> res (list T)) : NoDup ifree -> places n ifree diag -> length wa2 = n ->
  (forall j d, j < n -> length d = length diag -> dg ifree d j = dg ifree diag j -> f j d = Ok (upd d (nth j ifree 0) (g j (dg ifree diag j)))) ->
  exists d, for_ n f diag = Ok d /\ length d = length diag /\ forall j, j < n -> dg ifree d j = g j (dg ifree diag j).
Proof.
  intros ND (Li & B) Lw H.
  destruct (@for_inv (list T) (fun e d => length d = length diag /\ forall j, j < n -> dg ifree d j = if j <? e then g j (dg ifree diag j) else dg ifree diag j) f n diag) as (d & E & Ld & P).
  - split; [reflexivity|]. reflexivity.
  - intros e d He (Ld & P). rewrite H; [|exact He|exact Ld|]. 2:{ rewrite P by exact He. now rewrite Nat.ltb_irrefl. }
    eexists. split; [reflexivity|]. split; [now rewrite upd_length|]. intros j Hj. unfold dg at 1, LM_Lmpar.dg. rewrite vn_upd. rewrite Ld.
    assert (nth e ifree 0 <? length diag = true) as -> by (apply Nat.ltb_lt; auto). rewrite andb_true_r.
    destruct (Nat.eqb_spec (nth e ifree 0) (nth j ifree 0)) as [Q|Q].
    + assert (e = j) as -> by (rewrite NoDup_nth in ND; apply ND in Q; lia). assert (j <? S j = true) as -> by (apply Nat.ltb_lt; lia). reflexivity.
    + specialize (P j Hj). unfold LM_Lmpar.dg in P. rewrite P. destruct (Nat.ltb_spec j e), (Nat.ltb_spec j (S e)); try lia; try reflexivity. assert (j = e) by lia. congruence.
  - exists d. split; [exact E|]. split; [exact Ld|]. intros j Hj. rewrite P by exact Hj. assert (j <? n = true) as -> by (now apply Nat.ltb_lt). reflexivity.
Qed.
Lemma initial_diag_total ifree wa2 diag : NoDup ifree -> places n ifree diag -> length wa2 = n ->
  exists d, initial_diag N n ifree wa2 diag = Ok d /\ length d = length diag /\ forall j, j < n -> dg ifree d j = if neqb N (vn wa2 j) z then one else vn wa2 j.
Proof.
  intros ND Pl Lw. unfold initial_diag. apply (@diag_total (fun j _ => if neqb N (vn wa2 j) z then one else vn wa2 j) ifree wa2 diag); try assumption.
  intros j d Hj Ld Q. rewrite (@get_nth _ 0 ifree j) by (rewrite (proj1 Pl); exact Hj). cbn [bind]. rewrite (@get_vn T N wa2 j) by lia. cbn [bind].
  rewrite set_lt by (rewrite Ld; apply Pl; exact Hj). reflexivity.
Qed.
Lemma rescale_total ifree wa2 diag : NoDup ifree -> places n ifree diag -> length wa2 = n ->
  exists d, rescale N n ifree wa2 diag = Ok d /\ length d = length diag /\ forall j, j < n -> dg ifree d j = dmax1 N (dg ifree diag j) (vn wa2 j).
Proof.
  intros ND Pl Lw. unfold rescale. apply (@diag_total (fun j a => dmax1 N a (vn wa2 j)) ifree wa2 diag); try assumption.
  intros j d Hj Ld Q. rewrite (@get_nth _ 0 ifree j) by (rewrite (proj1 Pl); exact Hj). cbn [bind]. rewrite (@get_vn T N wa2 j) by lia. cbn [bind].
  assert (nth j ifree 0 < length d) by (rewrite Ld; apply Pl; exact Hj). rewrite (@get_vn T N d (nth j ifree 0)) by assumption. cbn [bind]. rewrite set_lt by assumption.
  f_equal. f_equal. f_equal. exact Q.
Qed.

(** ---- qtf, the gradient and the checks ---- *)
Lemma apply_qt_total q rdiag f : shape m n q -> length rdiag = n -> length f = m -> exists r qtf, apply_qt N m n q rdiag f = Ok (r, qtf) /\ shape m n r /\ length qtf = n.
Proof.
  intros Sq Lr Lf. unfold apply_qt.
  match goal with |- context [@for_ ?St n ?body ?s0] => destruct (@for_inv St (fun j '(r, w, qtf) => shape m n r /\ length w = m /\ length qtf = j) body n s0) as ([[r w] qtf] & E & Sr & Lw & Lq) end.
  - auto.
  - intros j [[r w] qtf] Hj (Sr & Lw & Lq). pose proof (proj1 Sr) as La. rewrite (@get_nth _ [] r j) by lia. cbn [bind].
    assert (Lc : length (nth j r []) = m) by (eapply shape_col; eauto). rewrite (@get_vn T N (nth j r []) j) by lia. cbn [bind].
    match goal with |- context [bind (if ?b then ?x else ?y) ?k] => assert (HW : exists w', (if b then x else y) = Ok w' /\ length w' = m) end.
    { destruct (neqb N _ _); [eauto|]. destruct (@dot_ok T N (nth j r []) w j m) as (s & ->); [lia|lia|]. cbn [bind]. cbv zeta.
      match goal with |- context [for_from j (m - j) ?body w] => destruct (@for_from_inv (list T) (fun _ w => length w = m) body (m - j) j w) as (w' & E & L') end.
      - exact Lw.
      - intros i w1 Hi L1. rewrite (@get_vn T N w1 i) by lia. cbn [bind]. rewrite (@get_vn T N (nth j r []) i) by lia. cbn [bind]. rewrite set_lt by lia. eexists. split; [reflexivity|]. now rewrite upd_length.
      - eauto. }
    destruct HW as (w' & -> & L'). cbn [bind]. rewrite (@get_vn T N rdiag j) by lia. cbn [bind].
    destruct (@set2_ok T N m n r j j (vn rdiag j) Sr) as (r' & -> & Sr' & _); [lia|lia|]. cbn [bind]. rewrite (@get_vn T N w' j) by lia. cbn [bind].
    eexists. split; [reflexivity|]. split; [exact Sr'|]. split; [exact L'|]. rewrite app_length. cbn. lia.
  - rewrite E. cbn [bind]. eauto.
Qed.
Lemma all_finite_total r : shape m n r -> exists b, all_finite N n r = Ok b.
Proof.
  intros Sh. unfold all_finite. destruct (@for_total bool (fun _ => True) n (fun j ok => for_ n (fun i ok => do v <- get2 r i j; Ok (ok && nfin N v)) ok) true I) as (b & -> & _); [|eauto].
  intros j b Hj _. destruct (@for_total bool (fun _ => True) n (fun i ok => do v <- get2 r i j; Ok (ok && nfin N v)) b I) as (b' & -> & _); [|eauto].
  intros i c Hi _. rewrite (@get2_ok T N m n r i j Sh) by lia. cbn [bind]. eauto.
Qed.
Lemma grad_norm_total r ip wa2 qtf fnorm : shape m n r -> perm n ip -> length wa2 = n -> length qtf = n -> exists g, grad_norm N n r ip wa2 qtf fnorm = Ok g.
Proof.
  intros Sh P Lw Lq. unfold grad_norm. destruct (neqb N fnorm z); [eauto|].
  match goal with |- context [for_ n ?body z] => destruct (@for_total T (fun _ => True) n body z I) as (g & -> & _) end; [|eauto].
  intros j g Hj _. destruct (perm_get P Hj) as (-> & Hl). cbn [bind]. rewrite (@get_vn T N wa2 (nth j ip 0)) by lia. cbn [bind]. destruct (neqb N _ z); [eauto|].
  match goal with |- context [for_ (S j) ?body z] => destruct (@for_total T (fun _ => True) (S j) body z I) as (s & -> & _) end; [|cbn [bind]; eauto].
  intros i s Hi _. rewrite (@get2_ok T N m n r i j Sh) by lia. cbn [bind]. rewrite (@get_vn T N qtf i) by lia. cbn [bind]. eauto.
Qed.

(** ---- the step ---- *)
Lemma limit_step_total q x wa1 : n <= length q -> n <= length x -> length wa1 = n -> exists w a, limit_step N n q x wa1 = Ok (w, a) /\ length w = n.
Proof.
  intros Lq Lx Lw. unfold limit_step.
  match goal with |- context [@for_ ?St n ?body ?s0] => destruct (@for_total St (fun '(w, _) => length w = n) n body s0) as ([w a] & E & L) end; [exact Lw| |eauto].
  intros j [w a] Hj L. destruct (nth_error q j) as [l|] eqn:El; [|apply nth_error_None in El; lia]. assert (Hget : get q j = Ok l) by (unfold get; now rewrite El).
  rewrite Hget. cbn [bind]. rewrite (@get_vn T N x j) by lia. cbn [bind]. rewrite (@get_vn T N w j) by lia. cbn [bind]. cbv zeta. rewrite set_lt by lia. cbn [bind].
  eexists. split; [reflexivity|]. cbv beta iota. now rewrite upd_length.
Qed.
Lemma move_total q x wa1 alpha : n <= length q -> n <= length x -> length wa1 = n -> exists w y, move N n q x wa1 alpha = Ok (w, y) /\ length w = n /\ length y = n.
Proof.
  intros Lq Lx Lw. unfold move.
  match goal with |- context [@for_ ?St n ?body ?s0] => destruct (@for_inv St (fun e '(w, y) => length w = n /\ length y = e) body n s0) as ([w y] & E & L) end; [split; [exact Lw|reflexivity]| |eauto].
  intros j [w y] Hj (L & Ly). destruct (nth_error q j) as [l|] eqn:El; [|apply nth_error_None in El; lia]. assert (Hget : get q j = Ok l) by (unfold get; now rewrite El).
  rewrite Hget. cbn [bind]. rewrite (@get_vn T N x j) by lia. cbn [bind]. rewrite (@get_vn T N w j) by lia. cbn [bind]. cbv zeta. rewrite set_lt by lia. cbn [bind].
  eexists. split; [reflexivity|]. cbv beta iota. rewrite upd_length, app_length. cbn. split; lia.
Qed.
Lemma r_times_total r ip wa1 : shape m n r -> perm n ip -> length wa1 = n -> exists w, r_times N n r ip wa1 = Ok w /\ length w = n.
Proof.
  intros Sh P L. unfold r_times. apply (@for_total (list T) (fun w => length w = n)); [apply repeat_length|].
  intros j w Hj Lw. rewrite set_lt by lia. cbn [bind]. destruct (perm_get P Hj) as (-> & Hl). cbn [bind]. rewrite (@get_vn T N wa1 (nth j ip 0)) by lia. cbn [bind].
  apply (@for_total (list T) (fun w => length w = n)); [now rewrite upd_length|]. intros i w1 Hi L1. rewrite (@get_vn T N w1 i) by lia. cbn [bind].
  rewrite (@get2_ok T N m n r i j Sh) by lia. cbn [bind]. rewrite set_lt by lia. eexists. split; [reflexivity|]. cbv beta iota. now rewrite upd_length.
Qed.
End G.
