(** C08: layout of the parameter vector. C09, C10: parameters of several images. *)
From Coq Require Import List Arith Reals Lra Lia Bool String.
From Verif Require Import Base Num Params_Model Params_Spec Params_Proof.
Import ListNotations.
Local Open Scope list_scope.

(** For every block-structured model, function n is set up with the centre of its own
    block and a slice of the flat vector that is exactly its own parameters; and the
    indices handed out (centre of an opened block, then the own slice, function after
    function) are 0, 1, ..., each exactly once. *)
Theorem C08_layout : forall (T : Type) (bs : list (blk T)), blocks_ok bs ->
  exists flags calls,
    DefineFunctionSets (List.length (sizes bs)) (starts 0 bs) = Ok flags /\
    nParamsTot (sizes bs) (starts 0 bs) = List.length (flat bs) /\
    setup_calls (flat bs) (sizes bs) flags = Ok calls /\
    Forall2 (fun '(off, x, y) '(x', y', f) => x = x' /\ y = y' /\ own (flat bs) off (List.length f) = Ok f)
      calls (seen bs) /\
    flat_map (fun '(flag, sz, (off, _, _)) => (if (flag : bool) then [off - 2; off - 1] else []) ++ seq off sz)
      (combine (combine flags (sizes bs)) calls) = seq 0 (List.length (flat bs)).
Proof.
  intros T bs H. destruct (layout_ok H) as (flags & calls & E1 & E2 & E3 & E4 & E5).
  exists flags, calls. repeat (split; [assumption|]). split.
  - clear -E4. induction E4 as [|[[o x] y] [[x' y'] f] l l' Hh Ht IH]; constructor; auto.
  - rewrite <- E5. apply flat_map_ext. intros [[fl sz] [[o x] y]]. reflexivity.
Qed.
Print Assumptions C08_layout.

(** The labels follow the same layout: X0, Y0, then each function's names. *)
Theorem C08_labels : forall (nbs : list (blk string)), blocks_ok nbs ->
  Forall (fun b => b_x b = "X0"%string /\ b_y b = "Y0"%string) nbs ->
  exists flags, DefineFunctionSets (List.length (sizes nbs)) (starts 0 nbs) = Ok flags /\
    PopulateParameterNames (flat_map b_funcs nbs) flags = Ok (flat nbs).
Proof.
  intros nbs H HX. exists (flag_list nbs). split; [now apply defsets_ok|].
  apply labels_ok; auto. exact (proj2 H).
Qed.
Print Assumptions C08_labels.

(** Image-section offsets are put at the centres of the blocks and nowhere else. *)
Theorem C08_image_offsets : forall (T : Type) (ox oy : T) (bs : list (blk T)), blocks_ok bs ->
  exists flags, DefineFunctionSets (List.length (sizes bs)) (starts 0 bs) = Ok flags /\
    GetImageOffsets (sizes bs) flags ox oy true (flat bs) = Ok (flat (recentre (fun _ => (ox, oy)) bs)) /\
    GetImageOffsets (sizes bs) flags ox oy false (flat bs) = Ok (flat bs).
Proof.
  intros T ox oy bs H. exists (flag_list bs). split; [now apply defsets_ok|].
  split; [exact (offsets_ok ox oy true H)|exact (offsets_ok ox oy false H)].
Qed.
Print Assumptions C08_image_offsets.

Definition demo_model : list (blk R) :=
  [mkBlk 10 20 [[1; 2]; [3]]; mkBlk 30 40 [[4; 5; 6]]; mkBlk 50 60 [[7]; []]]%R.
Example C08_hyp_example : blocks_ok demo_model /\ sizes demo_model = [2; 1; 3; 1; 0] /\ starts 0 demo_model = [0; 2; 3].
Proof. split; [split; [discriminate|repeat constructor; discriminate]|split; reflexivity]. Qed.

(** C09 (exact arithmetic). The joint vector holds, for images 1, 2, ..., their five
    description values, then the shared model, then each image's own (local) parameters.
    Image 0 receives the shared model verbatim; image k >= 1 receives it with every centre
    moved by that image's shift, rotation and scale; both followed by their local
    parameters. [prev] is whatever the buffer held before. *)
Theorem C09_assembly : forall (imgs : list (imgpar R)) (b0 : blk R) (bs : list (blk R)) (locs : list (list R)) k loc prev,
  blocks_ok (b0 :: bs) -> List.length locs = S (List.length imgs) -> nth_error locs k = Some loc ->
  List.length prev = List.length (flat (b0 :: bs)) + List.length loc ->
  let joint := img_flat imgs ++ flat (b0 :: bs) ++ concat locs in
  exists flags, DefineFunctionSets (List.length (sizes (b0 :: bs))) (starts 0 (b0 :: bs)) = Ok flags /\
  let got := AssembleParametersForImage NumR joint (List.length joint) (S (List.length imgs)) k
               (sizes (b0 :: bs)) flags (List.length (b0 :: bs)) (map (@List.length R) locs) prev in
  (k = 0 -> got = Ok (flat (b0 :: bs) ++ loc)) /\
  (forall k' im, k = S k' -> nth_error imgs k' = Some im -> (0 < i_pix im)%R ->
     got = Ok (flat (recentre (fun b => place (i_pix im) (rad (i_rot im)) (i_x im) (i_y im)
                                          (b_x b0) (b_y b0) (b_x b) (b_y b)) (b0 :: bs)) ++ loc) /\
     DescrForImage NumR joint k = Ok (i_pix im, i_rot im, i_flux im)).
Proof.
  intros imgs b0 bs locs k loc prev Hok Hl Hk Hp joint. exists (flag_list (b0 :: bs)). split; [now apply defsets_ok|].
  pose proof (@holder_ok R NumR imgs b0 bs locs k loc prev Hok Hl Hk Hp) as E. cbv zeta in E. fold joint in E.
  cbv zeta. rewrite E. split.
  - intros ->. reflexivity.
  - intros k' im -> Him Hpos. rewrite Him. split.
    + rewrite for_image_all by auto. reflexivity.
    + unfold DescrForImage. unfold joint. rewrite (extract_ok _ Him). reflexivity.
Qed.
Print Assumptions C09_assembly.

(** the same for the stand-alone function, in any arithmetic: only the centres change *)
Theorem C09_assembly_function : forall (T : Type) (N : Num T) (imgs : list (imgpar T)) b0 bs k prev,
  blocks_ok (b0 :: bs) -> k <= List.length imgs -> List.length prev = List.length (flat (b0 :: bs)) ->
  exists flags centres, DefineFunctionSets (List.length (sizes (b0 :: bs))) (starts 0 (b0 :: bs)) = Ok flags /\
    List.length centres = List.length (b0 :: bs) /\ (k = 0 -> centres = map (fun b => (b_x b, b_y b)) (b0 :: bs)) /\
    AssembleParamsForImage N (img_flat imgs ++ flat (b0 :: bs)) (List.length (img_flat imgs ++ flat (b0 :: bs)))
      (S (List.length imgs)) k (sizes (b0 :: bs)) flags (List.length (b0 :: bs)) prev
    = Ok (flat (map (fun '(b, c) => mkBlk (fst c) (snd c) (b_funcs b)) (combine (b0 :: bs) centres))).
Proof.
  intros T N imgs b0 bs k prev Hok Hk Hp.
  set (fin := match k with O => b0 :: bs | S k' => match nth_error imgs k' with Some im => for_image N im b0 bs | None => [] end end).
  exists (flag_list (b0 :: bs)), (map (fun b => (b_x b, b_y b)) fin). split; [now apply defsets_ok|].
  assert (G : forall (f : blk T -> T * T) l, map (fun '(b, c) => mkBlk (fst c) (snd c) (b_funcs b))
      (combine l (map (fun b => (b_x b, b_y b)) (recentre f l))) = recentre f l).
  { intros f. induction l as [|b l IHl]; auto. cbn [recentre map combine]. cbn [fst snd b_x b_y]. f_equal. exact IHl. }
  assert (G0 : forall l : list (blk T), map (fun '(b, c) => mkBlk (fst c) (snd c) (b_funcs b))
      (combine l (map (fun b => (b_x b, b_y b)) l)) = l).
  { induction l as [|b l IHl]; auto. cbn [map combine fst snd]. f_equal; [destruct b; reflexivity|exact IHl]. }
  rewrite map_length. split; [|split].
  - unfold fin. destruct k as [|k]; auto. destruct (nth_error imgs k) eqn:E.
    + unfold for_image, recentre. simpl. now rewrite map_length.
    + apply nth_error_None in E. lia.
  - intros ->. reflexivity.
  - rewrite (@assemble_ok T N imgs b0 bs k prev Hok Hk Hp). f_equal. f_equal. fold fin.
    unfold fin. destruct k as [|k]; [now rewrite G0|].
    destruct (nth_error imgs k) eqn:E; [|apply nth_error_None in E; lia].
    unfold for_image. cbn [map combine fst snd b_x b_y b_funcs]. f_equal. symmetry. apply G.
Qed.
Print Assumptions C09_assembly_function.

Example C09_hyp_example :
  blocks_ok [mkBlk 10 20 [[1; 2]]; mkBlk 30 40 [[3]]]%R /\
  nth_error [mkImg 2 90 1 5 6]%R 0 = Some (mkImg 2 90 1 5 6)%R /\ (0 < i_pix (mkImg 2 90 1 5 6))%R.
Proof. split; [split; [discriminate|repeat constructor; discriminate]|split; [reflexivity|simpl; lra]]. Qed.

(** A zero or negative pixel scale is reported by a status that every caller ignores: all
    further centres silently become (0, 0). *)
Theorem C09_bad_scale_refuted : forall (im : imgpar R) b0 bs prev,
  blocks_ok (b0 :: bs) -> (i_pix im <= 0)%R -> List.length prev = List.length (flat (b0 :: bs)) ->
  exists flags, DefineFunctionSets (List.length (sizes (b0 :: bs))) (starts 0 (b0 :: bs)) = Ok flags /\
  AssembleParamsForImage NumR (img_flat [im] ++ flat (b0 :: bs)) (List.length (img_flat [im] ++ flat (b0 :: bs)))
      2 1 (sizes (b0 :: bs)) flags (List.length (b0 :: bs)) prev
  = Ok (flat (mkBlk (i_x im) (i_y im) (b_funcs b0) :: recentre (fun _ => (0, 0)%R) bs)).
Proof.
  intros im b0 bs prev Hok Hle Hp. exists (flag_list (b0 :: bs)). split; [now apply defsets_ok|].
  change 2 with (S (List.length [im])) at 1.
  rewrite (@assemble_ok R NumR [im] b0 bs 1 prev Hok (le_n 1) Hp). cbn [nth_error]. unfold for_image.
  f_equal. f_equal. f_equal. apply recentre_ext. intros b.
  unfold moved, CalculateOffset_X0Y0. cbn [nleb nofZ NumR].
  destruct (Rleb (i_pix im) 0) eqn:E; [reflexivity|]. apply Rleb_false in E. lra.
Qed.
Print Assumptions C09_bad_scale_refuted.

(** C10. The map between images is a similarity of ratio [s] with rotation [th]: the
    difference of two mapped points is the rotated, scaled difference (so lengths scale by
    [s] and orientation is kept), and it is undone by the map with [1/s] and [-th]. *)
Theorem C10_similarity : forall s th X Y x0 y0 x1 y1 x2 y2 : R, (0 < s)%R ->
  let p := place s th X Y x0 y0 x1 y1 in
  let q := place s th X Y x0 y0 x2 y2 in
  (sqrt ((fst q - fst p) ^ 2 + (snd q - snd p) ^ 2) = s * sqrt ((x2 - x1) ^ 2 + (y2 - y1) ^ 2))%R /\
  (fst q - fst p = s * ((x2 - x1) * cos th + (y2 - y1) * sin th))%R /\
  (snd q - snd p = s * (- (x2 - x1) * sin th + (y2 - y1) * cos th))%R /\
  (forall x3 y3, let r := place s th X Y x0 y0 x3 y3 in
    ((fst q - fst p) * (snd r - snd p) - (snd q - snd p) * (fst r - fst p)
     = s ^ 2 * ((x2 - x1) * (y3 - y1) - (y2 - y1) * (x3 - x1)))%R) /\
  place (/ s) (- th) x0 y0 X Y (fst p) (snd p) = (x1, y1) /\
  place s th X Y x0 y0 x0 y0 = (X, Y).
Proof.
  intros s th X Y x0 y0 x1 y1 x2 y2 Hs p q.
  destruct (place_similar s th X Y x0 y0 x1 y1 x2 y2) as (E1 & E2 & E3). fold p q in E1, E2, E3.
  split; [|split; [exact E2|split; [exact E3|split; [|split]]]].
  - rewrite E1. rewrite sqrt_mult by (try apply Rplus_le_le_0_compat; apply pow2_ge_0). f_equal. simpl. rewrite Rmult_1_r. apply sqrt_square. lra.
  - intros x3 y3 r. destruct (place_similar s th X Y x0 y0 x1 y1 x3 y3) as (_ & F2 & F3). fold p r in F2, F3.
    rewrite E2, E3, F2, F3. pose proof (sin2_cos2 th) as H. unfold Rsqr in H.
    transitivity (s ^ 2 * ((x2 - x1) * (y3 - y1) - (y2 - y1) * (x3 - x1)) * (sin th * sin th + cos th * cos th))%R; [ring|].
    rewrite H. ring.
  - now apply place_inverse.
  - unfold place. f_equal; ring.
Qed.
Print Assumptions C10_similarity.

(** ... and the code computes exactly this map. *)
Theorem C10_code : forall x0 y0 x y X Y s rot : R, (0 < s)%R ->
  CalculateOffset_X0Y0 NumR x0 y0 x y X Y s rot =
  (fst (place s (rad rot) X Y x0 y0 x y), snd (place s (rad rot) X Y x0 y0 x y), 0%Z).
Proof.
  intros x0 y0 x y X Y s rot Hs. unfold CalculateOffset_X0Y0. cbn [nleb nofZ NumR].
  destruct (Rleb s 0) eqn:E; [apply Rleb_true in E; lra|]. reflexivity.
Qed.
Print Assumptions C10_code.
Example C10_hyp_example : (0 < 2)%R /\ place 2 0 100 200 1 2 4 6 = (106, 208)%R.
Proof. split; [lra|]. unfold place. rewrite cos_0, sin_0. f_equal; ring. Qed.
