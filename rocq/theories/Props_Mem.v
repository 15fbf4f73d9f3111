(** Property C55: memory estimates. *)
From Coq Require Import ZArith List Lia.
From Verif Require Import Base Mem_Spec Mem_Proof.
Import ListNotations.
Open Scope Z_scope.

(** The estimate for a convolver is at least what its six arrays take (8 bytes
    per double, 16 per complex value): for every image and PSF size for which
    the int arithmetic does not overflow. *)
Theorem C55_convolver : forall nc nr pc pr e, 1 <= nc -> 1 <= nr -> 1 <= pc -> 1 <= pr ->
  EstimateConvolverMemoryUse nc nr pc pr = Ok e -> bytes (convolver_buffers nc nr pc pr) <= e.
Proof. exact conv_at_least. Qed.
Print Assumptions C55_convolver.
Example C55_convolver_case : EstimateConvolverMemoryUse 100 50 5 7 = Ok 282275
  /\ bytes (convolver_buffers 100 50 5 7) = 282240.
Proof. split; reflexivity. Qed.

(** The estimate for a fit is at least the sum of all the image-sized arrays
    of the fit, PSF images included, with and without a PSF. *)
Theorem C55_fit : forall dc dr pc pr nf lm ca rs mo e, 1 <= dc -> 1 <= dr -> 0 <= nf -> (0 < pc -> 1 <= pr) ->
  EstimateMemoryUse dc dr pc pr nf lm ca rs mo = Ok e ->
  bytes (fit_buffers dc dr pc pr nf lm ca rs mo) <= e.
Proof. exact fit_bytes. Qed.
Print Assumptions C55_fit.
Example C55_fit_case : exists e, EstimateMemoryUse 100 80 9 9 6 true true false false = Ok e
  /\ bytes (fit_buffers 100 80 9 9 6 true true false false) < e.
Proof. eexists. split; [reflexivity|]. vm_compute. reflexivity. Qed.
Example C55_fit_tight : EstimateMemoryUse 100 80 0 0 6 true true false false
  = Ok (bytes (fit_buffers 100 80 0 0 6 true true false false)).
Proof. reflexivity. Qed.

(** No estimate overflows for sizes up to 2^24 in each direction and 1000 free
    parameters. *)
Theorem C55_defined : forall dc dr pc pr nf lm ca rs mo,
  size_ok dc -> size_ok dr -> size_ok pc -> size_ok pr -> 0 <= nf <= 1000 ->
  exists e, EstimateMemoryUse dc dr pc pr nf lm ca rs mo = Ok e.
Proof. exact fit_defined. Qed.
Print Assumptions C55_defined.
Example C55_defined_case : size_ok 5000. Proof. unfold size_ok. lia. Qed.

(** For oversampled regions the estimate is exactly 7 bytes per PSF pixel less
    than what is used, because the PSF image is counted in pixels, not bytes. *)
Theorem C55_regions : forall v e, Forall region_ok v -> EstimatePsfOversamplingMemoryUse v = Ok e ->
  e = bytes (flat_map region_buffers v)
      - 7 * fold_right Z.add 0 (map (fun r => rg_cols r * rg_rows r) v).
Proof. exact regions_bytes. Qed.
Print Assumptions C55_regions.
Theorem C55_region_refuted : forall r e, region_ok r -> region_use r = Ok e -> e < bytes (region_buffers r).
Proof. exact region_short. Qed.
Print Assumptions C55_region_refuted.
Example C55_region_case : region_ok (mkRegion 3 15 15 10 20 10 20)
  /\ exists e, region_use (mkRegion 3 15 15 10 20 10 20) = Ok e.
Proof. split; [unfold region_ok; cbn; lia|eexists; reflexivity]. Qed.
