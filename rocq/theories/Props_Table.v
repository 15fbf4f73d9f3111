(** Property C68: the columns of the bootstrap and Markov-chain output files. *)
From Coq Require Import Ascii String List ZArith Reals Lra Lia.
From Flocq Require Import Core.
From Verif Require Import Base Num StrUtil_Model StrUtil_Spec Config_Spec Config_Model Config_Proof Params_Spec Build_Model Save_Model.
From Verif Require Import Save_Spec Build_Spec Build_Proof Save_Proof Save_Final Save_Printf Table_Model Table_Spec Table_Proof.
Import ListNotations.
Local Open Scope list_scope.

(** C68, bootstrap output: for every model the header line and every line of values are
    produced without undefined behaviour. Split at blanks, the header is "#" and one
    name per parameter, X0_k and Y0_k for the k-th function block and the parameter
    names of the n-th function with the suffix _n, in the order of the parameter
    vector; no two columns have the same name. The line of values has as many words,
    the values in the same order, centres in coordinates of the full image. *)
Theorem C68_table :
  forall (T : Type) (N : Num T) (g10 : T -> str) (dec : nat -> str) (sep : str)
         (psf : option (Z * Z)) (bs : list (sblock T)) m offX offY,
  DecOK dec -> ShowOK g10 -> SepOK sep ->
  bs <> [] -> Forall (fun b => s_funcs b <> []) bs -> Forall Sized (sall bs) ->
  (Z.of_nat (List.length (sall bs)) < 2 ^ 31 - 1)%Z ->
  AddFunctions psf (map s_name (sall bs)) (map s_label (sall bs)) (sstarts bs) (map s_opts (sall bs)) = Ok (0%Z, Some m) ->
  exists h r, GetParamHeader dec m = Ok h /\ PrintModelParamsHorizontalString N g10 m offX offY (sflat bs) sep = Ok r /\
    Tokens Blank h (lit "#" :: columns dec bs) /\
    Tokens Blank r (map (fun p => g10 (fst p)) (shown (nadd N) offX offY bs)) /\
    NoDup (columns dec bs) /\
    List.length (columns dec bs) = List.length (shown (nadd N) offX offY bs) /\
    Forall2 (fun c p => exists j, c = tagged dec p j) (columns dec bs) (param_names bs).
Proof. exact table_ok. Qed.
Print Assumptions C68_table.

(** C68, Markov-chain output: the column line has the columns of the parameters, then
    likelihood, burn-in, CR1 ... CRn and accept; each line of a chain has the values,
    the likelihood, 0 or 1, the n crossover probabilities and the acceptance count, so
    that values and names correspond. *)
Theorem C68_chain_header :
  forall (T : Type) (dec : nat -> str) (psf : option (Z * Z)) (bs : list (sblock T)) m nCR,
  DecOK dec -> bs <> [] -> Forall (fun b => s_funcs b <> []) bs ->
  (Z.of_nat (List.length (sall bs)) <= 2 ^ 31 - 1)%Z ->
  1 <= nCR -> (Z.of_nat nCR <= 2 ^ 31 - 1)%Z ->
  AddFunctions psf (map s_name (sall bs)) (map s_label (sall bs)) (sstarts bs) (map s_opts (sall bs)) = Ok (0%Z, Some m) ->
  exists h, McmcColumnHeader dec m nCR = Ok h /\
    Tokens Blank h (lit "#" :: columns dec bs ++ [lit "likelihood"; lit "burn-in"] ++
                    map (fun n => lit "CR" ++ dec n) (seq 1 nCR) ++ [lit "accept"]).
Proof. intros T dec psf bs m nCR HD. exact (@mcmc_header_ok T dec HD psf bs m nCR). Qed.
Print Assumptions C68_chain_header.

Theorem C68_chain_line :
  forall (T : Type) (N : Num T) (g10 show : T -> str) (dec : nat -> str)
         (psf : option (Z * Z)) (bs : list (sblock T)) m offX offY lik (inBurnIn : bool) pCR accept,
  DecOK dec -> ShowOK g10 -> ShowOK show ->
  bs <> [] -> Forall (fun b => s_funcs b <> []) bs -> Forall Sized (sall bs) ->
  (Z.of_nat accept <= 2 ^ 31 - 1)%Z ->
  AddFunctions psf (map s_name (sall bs)) (map s_label (sall bs)) (sstarts bs) (map s_opts (sall bs)) = Ok (0%Z, Some m) ->
  exists r, ChainLine N g10 show dec m offX offY (sflat bs) lik inBurnIn pCR accept = Ok r /\
    Tokens Blank r (map (fun p => g10 (fst p)) (shown (nadd N) offX offY bs) ++
                    [show lik; if inBurnIn then lit "1" else lit "0"] ++ map show pCR ++ [dec accept]).
Proof. intros T N g10 show dec psf bs m offX offY lik b pCR acc HD HS HW. exact (@chain_line_ok T N g10 show dec HD HS HW psf bs m offX offY lik b pCR acc). Qed.
Print Assumptions C68_chain_line.

(** ---- the hypotheses can be met ---- *)
Definition decN (n : nat) : text := print 10 (Z.of_nat n).
Definition showR (v : R) : text := sci (ZnearestE (v * IZR (10 ^ 4))) (-4).
Definition exT : list (sblock R) :=
  [mkSblock 32.25%R 40%R [mkSfunc (lit "Exponential") [] [] [45; 0.3; 100; 20]%R; mkSfunc (lit "FlatSky") [] [] [12.125%R]];
   mkSblock 100%R 2%R [mkSfunc (lit "FlatSky") (lit "sky") [] [(-2.5)%R]]].

Lemma decN_ok : DecOK decN.
Proof.
  intros n Hn. unfold decN. split.
  - apply print_digits; [|lia]. change (10 ^ Z.of_nat 10)%Z with 10000000000%Z. change (2 ^ 31 - 1)%Z with 2147483647%Z in Hn. lia.
  - apply print_length.
Qed.

Definition Plain (c : ascii) : Prop := ~ Blank c /\ c <> ch 0.
Lemma print_plain k : forall z, (0 <= z)%Z -> Forall Plain (print k z).
Proof.
  assert (D : forall v, (0 <= v <= 9)%Z -> Plain (digit_of v)).
  { intros v Hv. pose proof (digit_not_blank (digit_of_val v Hv)). unfold Plain. tauto. }
  induction k as [|k IH]; intros z Hz; cbn [print]; [constructor|]. destruct (Z.ltb_spec z 10).
  - constructor; [apply D; lia|constructor].
  - apply Forall_app. split; [apply IH; apply Z.div_pos; lia|]. constructor; [|constructor]. apply D. pose proof (Z.mod_pos_bound z 10). lia.
Qed.
Lemma plain_char c : negb (existsb (ch_eqb c) [ascii_of_nat 32; ascii_of_nat 9; ascii_of_nat 10; ch 0]) = true -> Plain c.
Proof.
  intros H. apply Bool.negb_true_iff in H. split.
  - intros [<-|[<-|[<-|[]]]]; vm_compute in H; discriminate H.
  - intros ->. vm_compute in H. discriminate H.
Qed.
Lemma sci_plain n e : Forall Plain (sci n e).
Proof.
  assert (S : forall z, Forall Plain (sign_of z)).
  { intros z. unfold sign_of. destruct (z <? 0)%Z; constructor; [apply plain_char; reflexivity|constructor]. }
  unfold sci. repeat (apply Forall_app; split); try apply S; try (apply print_plain; lia).
  constructor; [apply plain_char; reflexivity|constructor].
Qed.

Example C68_hyp_example :
  DecOK decN /\ ShowOK showR /\ SepOK TAB /\ exT <> [] /\ Forall (fun b => s_funcs b <> []) exT /\ Forall Sized (sall exT) /\
  (Z.of_nat (List.length (sall exT)) < 2 ^ 31 - 1)%Z /\
  (exists m, AddFunctions None (map s_name (sall exT)) (map s_label (sall exT)) (sstarts exT) (map s_opts (sall exT)) = Ok (0%Z, Some m)) /\
  columns decN exT = map lit ["X0_1"; "Y0_1"; "PA_1"; "ell_1"; "I_0_1"; "h_1"; "I_sky_2"; "X0_2"; "Y0_2"; "I_sky_3"]%string.
Proof.
  split; [exact decN_ok|]. split.
  { intros v. unfold showR. destruct (sci_harmless (ZnearestE (v * IZR (10 ^ 4))) (-4)) as [_ HL].
    split; [|split; [exact HL|]].
    - unfold sci. intros Q. apply app_eq_nil in Q. destruct Q as [_ Q]. apply app_eq_nil in Q. destruct Q as [_ Q]. discriminate Q.
    - exact (sci_plain _ _). }
  split; [split; [discriminate|split; [cbn; lia|constructor; [cbn; auto|constructor]]]|].
  split; [discriminate|]. split; [repeat constructor; discriminate|]. split; [|split; [reflexivity|split; [eexists; vm_compute; reflexivity|vm_compute; reflexivity]]].
  assert (K : forall n (vs : list R), match find_class classes n with Some c => Nat.eqb (List.length vs) (List.length (c_params c)) | None => false end = true ->
     exists c, In c classes /\ c_name c = n /\ List.length vs = List.length (c_params c)).
  { intros n vs H. destruct (find_class classes n) as [c|] eqn:E; [|discriminate]. exists c. apply find_class_sound in E. destruct E.
    apply Nat.eqb_eq in H. auto. }
  cbn [sall exT flat_map s_funcs app]. repeat apply Forall_cons; try apply Forall_nil; apply K; vm_compute; reflexivity.
Qed.
