(** mp_lmpar(), solvers/mpfit.cpp:1783-2067, in any arithmetic: it stays inside its
    arrays, and its result comes from the Gauss-Newton direction or from mp_qrsolv(). *)
From Coq Require Import ZArith List Bool Lia Permutation.
From Verif Require Import Base Num Stats_Model DE_Model LM_Model DE_Proof LM_QR LM_Solve.
Import ListNotations.
Set Implicit Arguments. Unset Strict Implicit.
Local Open Scope nat_scope.

Section G.
Variable T : Type.
Variable N : Num T.
Variable enorm : list T -> T.
Notation z := (nofZ N 0).
Infix "+!" := (nadd N) (at level 50, left associativity).
Infix "*!" := (nmul N) (at level 40, left associativity).
Notation en := (@en T N).
Notation vn := (@vn T N).

Section D.
Variable m n : nat.
Hypothesis NM : n <= m.

(** one column of the substitution *)
Lemma subtract_ok r j temp wa : shape m n r -> length wa = n -> j < n ->
  exists w, for_ j (fun i wa => do w <- get wa i; do a <- get2 r i j; set wa i (nsub N w (a *! temp))) wa = Ok w /\ length w = n /\
    forall i, vn w i = if i <? j then nsub N (vn wa i) (en r i j *! temp) else vn wa i.
Proof.
  intros Sh L J. match goal with |- context [for_ j ?body wa] => destruct (@for_inv (list T) (fun e w => length w = n /\
    forall i, vn w i = if i <? e then nsub N (vn wa i) (en r i j *! temp) else vn wa i) body j wa) as (w & E & Lw & P) end.
  - split; [exact L|]. reflexivity.
  - intros i w Hi (Lw & P). rewrite (@get_vn T N w i) by lia. cbn [bind]. rewrite (@get2_ok T N m n r i j Sh) by lia. cbn [bind].
    destruct (@set_vn T N w i (nsub N (vn w i) (en r i j *! temp))) as (w' & -> & L' & P'); [lia|]. eexists. split; [reflexivity|]. split; [lia|].
    intros q. rewrite P'. destruct (Nat.eqb_spec q i) as [->|].
    + rewrite P, Nat.ltb_irrefl. assert (i <? S i = true) as -> by (apply Nat.ltb_lt; lia). reflexivity.
    + rewrite P. destruct (Nat.ltb_spec q i), (Nat.ltb_spec q (S i)); try lia; reflexivity.
  - exists w. auto.
Qed.

Lemma newton_dir_ok r wa ns : shape m n r -> length wa = n -> ns <= n -> exists w, newton_dir N ns r wa = Ok w /\ length w = n.
Proof.
  intros Sh L Hns. unfold newton_dir. match goal with |- context [for_ ns ?body wa] => destruct (@for_inv (list T) (fun _ w => length w = n) body ns wa) as (w & E & Lw) end; [exact L| |eauto].
  intros k w Hk Lw. cbv zeta. set (j := ns - k - 1). rewrite (@get_vn T N w j) by lia. cbn [bind]. rewrite (@get2_ok T N m n r j j Sh) by lia. cbn [bind].
  destruct (@set_vn T N w j (ndiv N (vn w j) (en r j j))) as (w1 & -> & L1 & _); [lia|]. cbn [bind]. rewrite (@get_vn T N w1 j) by lia. cbn [bind].
  destruct (@subtract_ok r j (vn w1 j) w1 Sh) as (w2 & E2 & L2 & _); [lia|lia|]. eauto.
Qed.

(** [ifree] gives places in [diag] *)
Definition places (ifree : list nat) (diag : list T) : Prop := length ifree = n /\ forall j, j < n -> nth j ifree 0 < length diag.
Definition dg (ifree : list nat) (diag : list T) (j : nat) : T := vn diag (nth j ifree 0).
Lemma get_dg ifree diag j : places ifree diag -> j < n -> (do p <- get ifree j; get diag p) = Ok (dg ifree diag j).
Proof. intros (L & P) J. rewrite (@get_nth _ 0 ifree j) by lia. cbn [bind]. apply get_vn. now apply P. Qed.

Lemma scaled_ok ifree diag x : places ifree diag -> length x = n -> scaled N n ifree diag x = Ok (map (fun j => dg ifree diag j *! vn x j) (seq 0 n)).
Proof.
  intros P L. unfold scaled. apply build_ok. intros j w Hj. destruct P as (Li & P). rewrite (@get_nth _ 0 ifree j) by lia. cbn [bind].
  rewrite (@get_vn T N diag) by (now apply P). cbn [bind]. rewrite (@get_vn T N x j) by lia. reflexivity.
Qed.
Lemma scaled_perm_ok ip ifree diag wa2 dx : perm n ip -> places ifree diag -> length wa2 = n -> exists w, scaled_perm N n ip ifree diag wa2 dx = Ok w /\ length w = n.
Proof.
  intros P Q L. unfold scaled_perm. rewrite (@build_ok T (fun j => dg ifree diag (nth j ip 0) *! ndiv N (vn wa2 (nth j ip 0)) dx)).
  - eexists. split; [reflexivity|]. rewrite map_length, seq_length. reflexivity.
  - intros j w Hj. destruct (perm_get P Hj) as (-> & Hp). cbn [bind]. destruct Q as (Li & Q). rewrite (@get_nth _ 0 ifree (nth j ip 0)) by lia. cbn [bind].
    rewrite (@get_vn T N diag) by (now apply Q). cbn [bind]. rewrite (@get_vn T N wa2) by lia. reflexivity.
Qed.
Lemma forward_subst_ok r wa : shape m n r -> length wa = n -> exists w, forward_subst N n r wa = Ok w /\ length w = n.
Proof.
  intros Sh L. unfold forward_subst. match goal with |- context [for_ n ?body wa] => destruct (@for_inv (list T) (fun _ w => length w = n) body n wa) as (w & E & Lw) end; [exact L| |eauto].
  intros j w Hj Lw. destruct (@acc_ok T (fun i sum => do a <- get2 r i j; do x <- get w i; Ok (sum +! a *! x)) 0 j z) as (s & Es).
  { intros i s Hi. rewrite (@get2_ok T N m n r i j Sh) by lia. cbn [bind]. rewrite (@get_vn T N w i) by lia. cbn [bind]. eauto. }
  unfold for_ at 1. rewrite Es. cbn [bind]. rewrite (@get_vn T N w j) by lia. cbn [bind]. rewrite (@get2_ok T N m n r j j Sh) by lia. cbn [bind].
  destruct (@set_vn T N w j (ndiv N (nsub N (vn w j) s) (en r j j))) as (w' & -> & L' & _); [lia|]. eexists. split; [reflexivity|lia].
Qed.
Lemma gradient_ok r ip ifree diag qtb : shape m n r -> perm n ip -> places ifree diag -> n <= length qtb -> exists w, gradient N n r ip ifree diag qtb = Ok w /\ length w = n.
Proof.
  intros Sh P Q L. unfold gradient. match goal with |- context [for_ n ?body ?s0] => destruct (@for_inv (list T) (fun e w => length w = e) body n s0) as (w & E & Lw) end; [reflexivity| |eauto].
  intros j w Hj Lw. destruct (@acc_ok T (fun i sum => do a <- get2 r i j; do q <- get qtb i; Ok (sum +! a *! q)) 0 (S j) z) as (s & Es).
  { intros i s Hi. rewrite (@get2_ok T N m n r i j Sh) by lia. cbn [bind]. rewrite (@get_vn T N qtb i) by lia. cbn [bind]. eauto. }
  unfold for_ at 1. rewrite Es. cbn [bind]. destruct (perm_get P Hj) as (-> & Hp). cbn [bind]. destruct Q as (Li & Q).
  rewrite (@get_nth _ 0 ifree (nth j ip 0)) by lia. cbn [bind]. rewrite (@get_vn T N diag) by (now apply Q). cbn [bind]. eexists. split; [reflexivity|].
  rewrite app_length. cbn [length]. lia.
Qed.
Lemma correction_ok r sd wa : shape m n r -> length sd = n -> length wa = n -> exists w, correction N n r sd wa = Ok w /\ length w = n.
Proof.
  intros Sh Ls L. unfold correction. match goal with |- context [for_ n ?body wa] => destruct (@for_inv (list T) (fun _ w => length w = n) body n wa) as (w & E & Lw) end; [exact L| |eauto].
  intros j w Hj Lw. rewrite (@get_vn T N w j) by lia. cbn [bind]. rewrite (@get_vn T N sd j) by lia. cbn [bind].
  destruct (@set_vn T N w j (ndiv N (vn w j) (vn sd j))) as (w1 & -> & L1 & _); [lia|]. cbn [bind]. rewrite (@get_vn T N w1 j) by lia. cbn [bind].
  match goal with |- context [for_from ?lo ?len ?body w1] => destruct (@for_from_inv (list T) (fun _ w => length w = n) body len lo w1) as (w2 & E2 & L2) end; [lia| |eauto].
  intros i w2 Hi L2. rewrite (@get_vn T N w2 i) by lia. cbn [bind]. rewrite (@get2_ok T N m n r i j Sh) by lia. cbn [bind].
  rewrite set_lt by lia. eexists. split; [reflexivity|]. rewrite upd_length. exact L2.
Qed.

Lemma scaled_diag_ok ifree diag t : places ifree diag ->
  for_ n (fun j w => do p <- get ifree j; do d <- get diag p; Ok (w ++ [t *! d])) [] = Ok (map (fun j => t *! dg ifree diag j) (seq 0 n)).
Proof.
  intros (Li & P). apply build_ok. intros j w Hj. rewrite (@get_nth _ 0 ifree j) by lia. cbn [bind]. rewrite (@get_vn T N diag) by (now apply P). reflexivity.
Qed.

(** the matrix, the parameter and x come from the last call of mp_qrsolv(); an
    invariant of the parameter *)
Variable Ipar : T -> Prop.    (* the parameter at the head of the loop *)
Variable Iend : T -> Prop.    (* the parameter used *)
Variable Il Iu : T -> Prop.   (* the bounds parl and paru *)
Lemma lmpar_loop_ok ip ifree diag qtb delta : perm n ip -> places ifree diag -> n <= length qtb ->
  (forall p u, Ipar p -> Iu u -> Iend (if neqb N p z then dmax1 N (DWARF N) (p001 N *! u) else p)) ->
  (forall l p, Il l -> Iend p -> Il (dmax1 N l p)) -> (forall u p, Iu u -> Iend p -> Iu (dmin1 N u p)) ->
  (forall l p c, Il l -> Iend p -> Ipar (dmax1 N l (p +! c))) ->
  forall left r par parl paru fp, shape m n r -> Ipar par -> Il parl -> Iu paru ->
  exists r' par' x, lmpar_loop N enorm left n ip ifree diag qtb delta r par parl paru fp = Ok (r', par', x) /\ shape m n r' /\ length x = n /\ Iend par' /\
    ((exists r0 sd, shape m n r0 /\ qrsolv N n r0 ip (map (fun j => nsqrt N par' *! dg ifree diag j) (seq 0 n)) qtb = Ok (r', x, sd) /\
       forall Q : matrix T -> Prop, Q r -> (forall r1 p1 r2 x2 sd2, shape m n r1 -> Iend p1 -> Q r1 -> qrsolv N n r1 ip (map (fun j => nsqrt N p1 *! dg ifree diag j) (seq 0 n)) qtb = Ok (r2, x2, sd2) -> Q r2) -> Q r0)).
Proof.
  intros P Q Lq H1 H2 H3 H4. induction left as [|left IH]; intros r par parl paru fp Sh Hp Hl Hu; cbn [lmpar_loop]; cbv zeta.
  all: pose proof (H1 par paru Hp Hu) as He; set (p := if neqb N par z then dmax1 N (DWARF N) (p001 N *! paru) else par) in *.
  all: rewrite scaled_diag_ok by assumption; cbn [bind].
  all: destruct (@qrsolv_ok T N m n NM r ip (map (fun j => nsqrt N p *! dg ifree diag j) (seq 0 n)) qtb Sh P) as (r1 & x & sd & E & S1 & Lx & Ls & _);
    [rewrite map_length, seq_length; reflexivity|exact Lq|]; rewrite E; cbn [bind].
  all: rewrite scaled_ok by assumption; cbn [bind].
  all: match goal with |- context [if ?b then _ else _] => destruct b end.
  1-3: exists r1, p, x; split; [reflexivity|]; split; [exact S1|]; split; [exact Lx|]; split; [exact He|]; exists r, sd; split; [exact Sh|]; split; [exact E|]; intros Qp Hq _; exact Hq.
  set (wa2 := map (fun j => dg ifree diag j *! vn x j) (seq 0 n)). assert (L2 : length wa2 = n) by (unfold wa2; rewrite map_length, seq_length; reflexivity).
  destruct (@scaled_perm_ok ip ifree diag wa2 (enorm wa2) P Q L2) as (w1 & -> & L1). cbn [bind].
  destruct (@correction_ok r1 sd w1 S1 Ls L1) as (w3 & -> & L3). cbn [bind].
  match goal with |- context [lmpar_loop N enorm left n ip ifree diag qtb delta r1 ?a ?b ?c ?d] => destruct (IH r1 a b c d S1) as (r' & p' & x' & E' & S' & L' & I' & r0 & sd0 & S0 & E0 & R0) end.
  - apply H4; [|exact He]. destruct (nltb N _ _); [now apply H2|exact Hl].
  - destruct (nltb N _ _); [now apply H2|exact Hl].
  - destruct (nltb N _ _); [now apply H3|exact Hu].
  - exists r', p', x'. split; [exact E'|]. split; [exact S'|]. split; [exact L'|]. split; [exact I'|]. exists r0, sd0. split; [exact S0|]. split; [exact E0|].
    intros Qp Hq Hstep. apply R0; [|exact Hstep]. exact (Hstep r p r1 x sd Sh He Hq E).
Qed.

Lemma lmpar_ok r ip ifree diag qtb delta par : shape m n r -> perm n ip -> places ifree diag -> n <= length qtb ->
  (forall p u, Ipar p -> Iu u -> Iend (if neqb N p z then dmax1 N (DWARF N) (p001 N *! u) else p)) ->
  (forall l p, Il l -> Iend p -> Il (dmax1 N l p)) -> (forall u p, Iu u -> Iend p -> Iu (dmin1 N u p)) ->
  (forall l p c, Il l -> Iend p -> Ipar (dmax1 N l (p +! c))) ->
  Il z -> (forall fp t, nleb N fp (p1 N *! delta) = false -> Il (ndiv N (ndiv N (ndiv N fp delta) t) t)) ->
  (forall w, Iu (if neqb N (ndiv N (enorm w) delta) z then ndiv N (DWARF N) (dmin1 N delta (p1 N)) else ndiv N (enorm w) delta)) ->
  (forall l u w d, Il l -> Iu u -> Ipar (if neqb N (dmin1 N (dmax1 N par l) u) z then ndiv N (enorm w) (enorm d) else dmin1 N (dmax1 N par l) u)) ->
  exists r' par' x, lmpar N enorm n r ip ifree diag qtb delta par = Ok (r', par', x) /\ shape m n r' /\ length x = n /\
    ((r' = r /\ par' = z /\ exists d ns wa1 w, length d = n /\ (forall j, j < n -> vn d j = en r j j) /\ length wa1 = n /\ length w = n /\ ns <= n /\
        (forall j, j < ns -> neqb N (vn d j) z = false) /\ (ns < n -> neqb N (vn d ns) z = true) /\
        (forall i, i < n -> vn wa1 i = if i <? ns then vn qtb i else z) /\
        newton_dir N ns r wa1 = Ok w /\ (forall j, j < n -> vn x (nth j ip 0) = vn w j)) \/
     (Iend par' /\ exists r0 sd, shape m n r0 /\ qrsolv N n r0 ip (map (fun j => nsqrt N par' *! dg ifree diag j) (seq 0 n)) qtb = Ok (r', x, sd) /\
       forall Q : matrix T -> Prop, Q r -> (forall r1 p1 r2 x2 sd2, shape m n r1 -> Iend p1 -> Q r1 -> qrsolv N n r1 ip (map (fun j => nsqrt N p1 *! dg ifree diag j) (seq 0 n)) qtb = Ok (r2, x2, sd2) -> Q r2) -> Q r0)).
Proof.
  intros Sh P Q Lq H1 H2 H3 H4 H5 H6 H7 H8. unfold lmpar. rewrite sub_ok by exact Lq. cbn [bind]. rewrite Nat.sub_0_r. cbn [skipn].
  set (wq := firstn n qtb). assert (Lwq : length wq = n) by (unfold wq; rewrite firstn_length; lia).
  rewrite (@build_ok T (fun j => en r j j)) by (intros i w Hi; rewrite (@get2_ok T N m n r i i Sh) by lia; reflexivity). cbn [bind].
  set (d := map (fun j => en r j j) (seq 0 n)). assert (Ld : length d = n) by (unfold d; rewrite map_length, seq_length; reflexivity).
  destruct (@find_nsing_ok T N m n NM d wq Ld Lwq) as (ns & wa1 & -> & Lw1 & Hns & A1 & A2 & W1). cbn [bind].
  destruct (@newton_dir_ok r wa1 ns Sh Lw1 Hns) as (w & En & Lw). rewrite En. cbn [bind].
  destruct (@unpermute_ok T N m n NM ip w (zeros N n) P Lw (repeat_length _ _)) as (x & -> & Lx & X). cbn [bind].
  rewrite scaled_ok by assumption. cbn [bind]. set (wa2 := map (fun j => dg ifree diag j *! vn x j) (seq 0 n)). cbv zeta.
  assert (L2 : length wa2 = n) by (unfold wa2; rewrite map_length, seq_length; reflexivity).
  set (fp := nsub N (enorm wa2) delta). destruct (nleb N fp (p1 N *! delta)) eqn:F.
  - exists r, z, x. split; [reflexivity|]. split; [exact Sh|]. split; [exact Lx|]. left. split; [reflexivity|]. split; [reflexivity|].
    exists d, ns, wa1, w. split; [exact Ld|]. split; [intros j Hj; apply (vn_map N (fun j => en r j j) Hj)|]. repeat (split; [assumption|]). split.
    + intros i Hi. rewrite W1 by exact Hi. destruct (i <? ns); [|reflexivity]. unfold wq, LM_Solve.vn. rewrite <- (firstn_skipn n qtb) at 2. rewrite app_nth1 by (rewrite firstn_length; lia). reflexivity.
    + split; [exact En|exact X].
  - match goal with |- context [bind (if Nat.leb n ns then ?a else ?b) _] => assert (HP : exists parl, (if Nat.leb n ns then a else b) = Ok parl /\ Il parl) end.
    { destruct (n <=? ns); [|exists z; split; [reflexivity|exact H5]].
      destruct (@scaled_perm_ok ip ifree diag wa2 (enorm wa2) P Q L2) as (u1 & -> & Lu1). cbn [bind]. destruct (@forward_subst_ok r u1 Sh Lu1) as (u2 & -> & Lu2). cbn [bind].
      eexists. split; [reflexivity|]. apply H6. exact F. }
    destruct HP as (parl & -> & Hl). cbn [bind]. destruct (@gradient_ok r ip ifree diag qtb Sh P Q Lq) as (g & -> & Lg). cbn [bind].
    match goal with |- context [lmpar_loop N enorm 9 n ip ifree diag qtb delta r ?a ?b ?c ?e] =>
      destruct (@lmpar_loop_ok ip ifree diag qtb delta P Q Lq H1 H2 H3 H4 9 r a b c e Sh) as (r' & p' & x' & E' & S' & L' & I' & C') end.
    + apply H8; [exact Hl|]. apply H7.
    + exact Hl.
    + apply H7.
    + exists r', p', x'. split; [exact E'|]. split; [exact S'|]. split; [exact L'|]. right. split; [exact I'|exact C'].
Qed.
End D.
End G.
