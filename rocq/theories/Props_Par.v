(** C64, C65: images computed by several threads, and total fluxes. *)
From Coq Require Import ZArith List Bool Arith Lia Permutation Reals Lra.
From Verif Require Import Base Num Sums Params_Model Params_Spec Conv_Model Downsample_Model Image_Model Image_Spec Par_Model Par_Spec Par_Proof Par_Flux Par_Image Par_History Par_Total.
Import ListNotations.

(** C64, in any arithmetic: the loop over pixels, with any number of threads, any chunk
    size and functions whose GetValue() only reads. Whatever the order of the threads'
    accesses there is no data race and no undefined behaviour, all threads finish, and
    then every pixel is the sum of the functions there (added to what it was, if asked). *)
Theorem C64_pixels_partial {T} (N : Num T) nThreads chunk (fs : list (fobj T)) sel add nCols cx cy (v : list T) :
  0 < nThreads ->
  always_ends (pixel_config N nThreads chunk (map pure fs) sel add nCols cx cy v)
    (fun m => forall k old, nth_error v k = Some old ->
      let s := kahan_sum N fs sel (cx (Z.rem (Z.of_nat k) nCols)) (cy (Z.quot (Z.of_nat k) nCols)) in
      m (Pixel (Z.of_nat k)) = Real (if add then nadd N old s else s)).
Proof. intros H. exact (@pixel_ends T N nThreads chunk H fs sel add nCols cx cy v). Qed.
Print Assumptions C64_pixels_partial.

(** C64, in any arithmetic: the same for the loop over rows in the image of one function *)
Theorem C64_rows {T} nThreads chunk (f : fobj T) nRows nCols cx cy (v : list T) :
  0 < nThreads -> length v = nRows * nCols ->
  always_ends (row_config nThreads chunk (pure f) nRows (Z.of_nat nCols) cx cy v)
    (fun m => forall r c, r < nRows -> c < nCols -> m (Pixel (Z.of_nat (r * nCols + c))) = Real (fo_value f (cx (Z.of_nat c)) (cy (Z.of_nat r)))).
Proof.
  intros H L. destruct (@row_ends T nThreads chunk H f nRows nCols cx cy v L) as (b & X). exists b. intros sched c E. destruct (X sched c E) as (A & B & C & D & F).
  repeat split; auto. intros Fi r k Hr Hk. destruct (nth_error v (r * nCols + k)) as [old|] eqn:Q; [|apply nth_error_None in Q; nia].
  rewrite (D Fi _ _ Q). unfold row_new. destruct (@row_index nCols r k Hk) as (-> & ->). reflexivity.
Qed.
Print Assumptions C64_rows.

(** C64, in any arithmetic and with any Fourier transform: for a model made by
    SetupModelImage() and any oversampled regions, a history of calls run by any number of
    threads gives, to the last bit, the images of the sequential program, whatever the order of
    accesses in each loop (an order that does not complete a loop gives [Fuel]); and
    there are orders that complete every loop. *)
Theorem C64_history {T} (N : Num T) r2c c2r (m : model T) nThreads chunk st :
  built N r2c c2r m -> 0 < nThreads -> length (st_vec st) = nModelVals m ->
  (forall calls, par_history N nThreads chunk r2c c2r m st calls = Fuel \/
     par_history N nThreads chunk r2c c2r m st calls = history N r2c c2r m st (map (@the_call T) calls)) /\
  (forall calls, exists pcalls, map (@the_call T) pcalls = calls /\
     par_history N nThreads chunk r2c c2r m st pcalls = history N r2c c2r m st calls).
Proof. intros B H L. split; [intros calls; exact (history_ok chunk H B calls L)|intros calls; exact (history_exists chunk H B calls L)]. Qed.
Print Assumptions C64_history.

(** a model of two functions and a 2 x 1 image; two threads; a complete order *)
Definition demo_model : model R := mkModel [mkFunc 1 (Plain (fun p x0 y0 x y => nth 0 p 0 + x)%R); mkFunc 1 (Plain (fun p _ _ _ y => nth 0 p 0 * y)%R)] [true; false] 2 1 None (fun _ _ => 0%R) [].
Example C64_built : built NumR (fun _ _ _ => []) (fun _ _ _ => []) demo_model.
Proof. apply (@Built_setup R NumR _ _ (mo_funcs demo_model) [true; false] None (fun _ _ => 0%R) 2 1 0%Z). reflexivity. Qed.
Definition turns (k : nat) : list nat := concat (repeat [0; 1] k).
Definition is_fuel {A} (r : res A) : bool := match r with Fuel => true | _ => false end.
Example C64_run : is_fuel (par_CreateModelImage NumR 2 1 (fun _ _ _ => []) (fun _ _ _ => []) demo_model (initial NumR demo_model (repeat (fun _ _ => 0%R) 2)) [1; 1; 3; 4]%R (turns 46) [] []) = false.
Proof. vm_compute. reflexivity. Qed.

(** C64 is false for the functions that integrate along the line of sight: GetValue()
    stores the address of a local array in a member. Two threads, two pixels, any
    arithmetic and any integral: there is a data race, and an order of accesses for
    which pixel 0 gets the integral for the coordinates of pixel 1, and one that reads a
    dead stack frame. *)
Theorem C64_line_of_sight_refuted {T} (N : Num T) frame integrate cx cy (a b : T) :
  let config := pixel_config N 2 1 [integrated 0 frame integrate] false false 2 cx cy [a; b] in
  let loop := pixel_loop N 2 1 [integrated 0 frame integrate] false false 2 cx cy [a; b] in
  let zero := nofZ N 0 in
  let value x := nadd N zero (nsub N (integrate (frame (cx x) (cy 0%Z))) zero) in
  (exists sched c, exec sched config = Some c /\ race c) /\
  (exists sched, loop sched = Ok [value 0%Z; value 1%Z]) /\
  (exists sched, loop sched = Ok [value 1%Z; value 1%Z]) /\
  (exists sched, loop sched = Undef).
Proof.
  intros config loop zero value. split; [|split; [|split]].
  - exists (repeat 0 14 ++ repeat 1 13). eexists. split; [vm_compute; reflexivity|]. exists 0, 1. do 2 eexists. exists (Fparams 0), Reading, Writing. split; [discriminate|]. split; [reflexivity|]. split; [reflexivity|]. split; [reflexivity|]. split; [reflexivity|exact I].
  - exists (repeat 0 35 ++ repeat 1 35). vm_compute. reflexivity.
  - exists (repeat 0 14 ++ repeat 1 14 ++ repeat 0 2 ++ repeat 1 21 ++ repeat 0 19). vm_compute. reflexivity.
  - exists (repeat 0 14 ++ repeat 1 14 ++ [0] ++ repeat 1 21 ++ [0]). vm_compute. reflexivity.
Qed.
Print Assumptions C64_line_of_sight_refuted.

(** C64 is false for a PointSource with bicubic interpolation: the threads write the
    interpolator's accelerators at the same time. *)
Theorem C64_interpolator_refuted {T} (N : Num T) f found cx cy (a b : T) :
  exists sched c, exec sched (pixel_config N 2 1 [accelerated 0 f found] true true 2 cx cy [a; b]) = Some c /\ race c.
Proof.
  exists (repeat 0 12 ++ repeat 1 12). eexists. split; [vm_compute; reflexivity|]. exists 0, 1. do 2 eexists. exists (Accel 0), Writing, Writing. split; [discriminate|]. split; [reflexivity|]. split; [reflexivity|]. split; [reflexivity|]. split; [reflexivity|exact I].
Qed.
Print Assumptions C64_interpolator_refuted.

(** C65, exact arithmetic: whatever the number of threads and the order of their
    accesses, FindTotalFluxes() stores in the array of the caller, for each function that is not a
    background, its flux in the middle of an image of w x h pixels; it leaves the other
    entries as they were and returns the sum of the fluxes. *)
Theorem C65_fluxes nThreads chunk cs (bs : list (blk R)) flags w h fluxes :
  0 < nThreads -> blocks_ok bs -> map (fun c => fn_nParams (co_func c)) cs = sizes bs ->
  DefineFunctionSets (length cs) (starts 0 bs) = Ok flags -> 1 <= w -> 1 <= h -> length cs <= length fluxes ->
  (forall c p x y, In c cs -> is_point (co_func c) = true -> co_total c p x y <> None) ->
  exists total fluxes',
    total = rsuml (map (fun '(c, (_, _, p)) => if co_background c then 0%R else component_flux c p w h) (combine cs (seen bs))) /\
    length fluxes' = length fluxes /\
    (forall n c x y p, nth_error cs n = Some c -> nth_error (seen bs) n = Some (x, y, p) ->
      nth_error fluxes' n = if co_background c then nth_error fluxes n else Some (component_flux c p w h)) /\
    (forall n, length cs <= n -> nth_error fluxes' n = nth_error fluxes n) /\
    (forall sched, FindTotalFluxes NumR nThreads chunk cs flags (flat bs) w h fluxes sched = Fuel \/
       FindTotalFluxes NumR nThreads chunk cs flags (flat bs) w h fluxes sched = Ok (total, fluxes')) /\
    (exists sched, FindTotalFluxes NumR nThreads chunk cs flags (flat bs) w h fluxes sched = Ok (total, fluxes')).
Proof.
  intros Ht Hb Hf Hfl Hw Hh Lf Hp.
  exists (new_total cs bs w h (length cs)), (map (fun '(n, r0) => new_flux cs bs w h n r0) (combine (seq 0 (length fluxes)) fluxes)).
  assert (Q : forall n, nth_error (map (fun '(n, r0) => new_flux cs bs w h n r0) (combine (seq 0 (length fluxes)) fluxes)) n = option_map (new_flux cs bs w h n) (nth_error fluxes n)).
  { intros n. rewrite nth_error_map. destruct (nth_error fluxes n) as [r0|] eqn:E; [rewrite (combine_seq_nth' 0 E); reflexivity|].
    replace (nth_error (combine (seq 0 (length fluxes)) fluxes) n) with (@None (nat * R)); [reflexivity|]. symmetry. apply nth_error_None. apply nth_error_None in E. rewrite combine_length, seq_length. lia. }
  split; [|split; [|split; [|split; [|split]]]].
  - unfold new_total. replace (firstn (length cs) (combine cs (seen bs))) with (combine cs (seen bs)).
    + f_equal. apply map_ext. intros [c [[x y] p]]. reflexivity.
    + symmetry. apply firstn_all2. rewrite combine_length. lia.
  - rewrite map_length, combine_length, seq_length. lia.
  - intros n c x y p Ec Ee. rewrite Q. assert (n < length fluxes) by (assert (n < length cs) by (apply nth_error_Some; congruence); lia).
    destruct (nth_error fluxes n) as [r0|] eqn:E; [|apply nth_error_None in E; lia]. cbn [option_map]. unfold new_flux. rewrite Ec, Ee. cbn [snd]. destruct (co_background c); reflexivity.
  - intros n Hn. rewrite Q. destruct (nth_error fluxes n) as [r0|]; [|reflexivity]. cbn [option_map]. unfold new_flux. replace (nth_error cs n) with (@None (component R)); [reflexivity|]. symmetry. apply nth_error_None. exact Hn.
  - intros sched. destruct (@total_ok nThreads chunk Ht cs bs flags w h fluxes Hb Hf Hfl Hw Hh Lf Hp sched) as [(_ & E)|E]; [left|right]; exact E.
  - apply total_exists; assumption.
Qed.
Print Assumptions C65_fluxes.

(** C65, any arithmetic: the sum over an image is the sum, in some order, of the sums of
    the threads, each over the pixels of its rows from left to right and top to bottom
    of the list. *)
Theorem C65_sum_of_shares {T} (N : Num T) nThreads chunk (f : fobj T) w h sched :
  let value := fun '(c, r) => fo_value f (nofZ N (Z.of_nat c + 1)) (nofZ N (Z.of_nat r + 1)) in
  flux_sum N nThreads chunk (pure f) w h sched = Fuel \/
  exists order, Permutation order (seq 0 nThreads) /\
    flux_sum N nThreads chunk (pure f) w h sched =
      Ok (sum_left N (map (fun t => sum_left N (map value (rows_pixels w (rows_of nThreads chunk h t)))) order)).
Proof.
  intros value. destruct (flux_sum_ok N nThreads chunk f w h sched) as [E|(order & P & E)]; [left; exact E|right]. exists order. split; [exact P|]. rewrite E. f_equal. f_equal. apply map_ext. intros t. f_equal. apply map_ext. intros [c r]. reflexivity.
Qed.
Print Assumptions C65_sum_of_shares.
(** C65, any arithmetic: no data race in the sum either *)
Theorem C65_no_race {T} (N : Num T) nThreads chunk (f : fobj T) w h :
  always_ends (flux_config N nThreads chunk (pure f) w h) (fun m => exists r, m (Shared VtotalComponentFlux) = Real r).
Proof.
  destruct (@flux_ends T N nThreads chunk f w h) as (b & X). exists b. intros sched c E. destruct (X sched c E) as (A & B & C & D & F). repeat split; auto.
  intros Fi. destruct (D Fi) as (order & _ & V). eexists. exact V.
Qed.
Print Assumptions C65_no_race.

(** C65 in binary64: the flux of one model depends on the order in which three threads
    finish, and on the number of threads: rows of 1, 2^53 and 1 *)
Definition rows_123 : func _ := mkFunc 0 (Plain (fun _ _ _ _ y => if f_eqb y (f_ofZ 2) then f_ofZ (2 ^ 53) else f_ofZ 1)).
Definition rows_component := mkComponent false (fun _ _ _ => None) rows_123.
Definition flux_is (z : Z) (r : res (_ * list _)) : bool := match r with Ok (t, [f]) => (f_eqb t (f_ofZ z) && f_eqb f (f_ofZ z))%bool | _ => false end.
Theorem C65_binary64_order_refuted : exists s1 s2 s3, forall m,
  flux_is (2 ^ 53) (FindTotalFluxes (NumF m) 1 1 [rows_component] [true] [f_ofZ 1; f_ofZ 1] 1 3 [f_ofZ 0] (fun _ => s1)) = true /\
  flux_is (2 ^ 53) (FindTotalFluxes (NumF m) 3 1 [rows_component] [true] [f_ofZ 1; f_ofZ 1] 1 3 [f_ofZ 0] (fun _ => s2)) = true /\
  flux_is (2 ^ 53 + 2) (FindTotalFluxes (NumF m) 3 1 [rows_component] [true] [f_ofZ 1; f_ofZ 1] 1 3 [f_ofZ 0] (fun _ => s3)) = true.
Proof.
  exists (repeat 0 42), (repeat 1 16 ++ repeat 0 16 ++ repeat 2 16), (repeat 0 16 ++ repeat 2 16 ++ repeat 1 16). intros m.
  split; [|split]; vm_compute; reflexivity.
Qed.
Print Assumptions C65_binary64_order_refuted.

(** the hypotheses of C65_fluxes: an extended function that is summed, a background, a
    function that calculates its flux *)
Definition demo_components : list (component R) :=
  [mkComponent false (fun _ _ _ => None) (mkFunc 1 (Plain (fun p x0 y0 x y => nth 0 p 0 * (x - x0))%R));
   mkComponent true (fun _ _ _ => None) (mkFunc 1 (Plain (fun p _ _ _ _ => nth 0 p 0%R)));
   mkComponent false (fun p _ _ => Some (nth 0 p 0%R)) (mkFunc 1 (Point 1%R))].
Definition demo_blks : list (blk R) := [mkBlk 3 4 [[10]; [1]]; mkBlk 5 5 [[7]]]%R.
Example C65_hyp_example : blocks_ok demo_blks /\ map (fun c => fn_nParams (co_func c)) demo_components = sizes demo_blks /\
  DefineFunctionSets 3 (starts 0 demo_blks) = Ok [true; false; true] /\
  (forall c p x y, In c demo_components -> is_point (co_func c) = true -> co_total c p x y <> None) /\
  map (fun '(c, (_, _, p)) => component_flux c p 2 3) (combine demo_components (seen demo_blks)) = [30; 6; 7]%R.
Proof.
  split; [split; [discriminate|repeat constructor; discriminate]|]. split; [reflexivity|]. split; [reflexivity|]. split.
  - intros c p x y [<-|[<-|[<-|[]]]]; cbn; discriminate.
  - unfold component_flux, demo_components, demo_blks, seen. cbn -[IZR Rmult Rplus Rminus Rdiv]. repeat (apply f_equal2; [lra|]). reflexivity.
Qed.
