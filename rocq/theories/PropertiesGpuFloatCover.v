(** Cell averages of the CUDA operation near the points, in float32 (C77).
    Generated by tools/gen_props.py from GpuFloatCoverProofs.v: statements only. *)
From Coq Require Import String List Arith ZArith NArith QArith Qround Qabs Lia Lqa Bool Permutation Sorted.
From Verif Require Import Tensor TensorFacts Spec PointCloud SpecCloud History PointCloudFacts QFacts CloudProofs
  Grid SpecGrid GridFacts GridProofs Neighbors SpecNeighbors NeighborFacts NeighborProofs Neighborhood NeighborhoodFacts Sampling SpecSampling SamplingFacts SamplingProofs
  Cuda CudaFacts AddFacts GpuGrid GpuGridFacts GpuGridProofs GpuScan SpecGpu GpuNeighbors GpuCountFacts SlotFacts GpuStoreFacts
  GpuNeighborFacts GpuOpFacts GpuRangeFacts GpuGeometry GpuSearchFacts GpuNeighborProofs GpuSampling UniqueFacts PoissonFacts SampleFacts SpecGpuSampling GpuSampleFacts GpuSampleProofs
  Float FloatFacts FloatGrid SpecFloat FloatGridFacts FloatProofs GpuFloat SpecGpuFloat GpuFloatProofs GpuFloatSearch GpuNearFacts GpuFloatSearchProofs GpuFloatSampling
  FloatNorm FloatNormProofs FloatAverage SpecFloatAverage FloatAverageProofs GpuFloatAverage SpecGpuFloatAverage GpuFloatAverageProofs.
From Verif Require Import GpuFloatCoverProofs.
Import ListNotations.
Local Open Scope nat_scope.

(** C77, cover. For clouds whose points and lower corners are within [m] cells of
    the origin, every point is near a returned point of its element, and every
    returned point near a point: the coordinates differ by no more than the size
    of a cell, enlarged by the rounding errors of the cells and of the average.
    Partial: the size of the cell itself is exceeded. *)
Theorem C77_cover_partial :
  forall fused gactive active warp eps D rows ids B p cs (m : Z),
    gactive <> 0 -> (forall k, active k <> 0) -> warp <> 0 -> 2 <= D <= 6 -> ids <> [] ->
    cloud GPU eps D rows ids B p -> float32_batch D rows ids -> (Z.of_nat (length ids) <= 2 ^ 23)%Z -> valid_sizes D (map f32 cs) ->
    let size d := nth d (all_dims D (map f32 cs)) 0%Q in
    (forall d, d < D -> (pow2 (-100) <= size d)%Q /\ (size d <= pow2 100)%Q) ->
    (forall i d, i < length ids -> d < D -> (Qabs (xc rows i d) <= inject_Z m * size d)%Q) ->
    (forall lo i d, i < length ids -> d < D -> lower_corner32 D rows ids (nth i ids 0) lo -> (Qabs (nth d lo 0) <= inject_Z m * size d)%Q) ->
    let near x i := forall d, d < D ->
      (Qabs (nth d x 0 - xc rows i d) <= size d * (1 + (inject_Z m + 1) / 1048576) +
         inject_Z m * size d * (inject_Z (Z.of_nat (length ids)) / 8388608) + pow2 (-148))%Q in
    mk_grid_gpu32 fused gactive warp p cs (fun g => forall n,
      ngrid n = g -> length (rdata (nranges n)) = length ids ->
      sample_average_gpu32 active warp n (fun q =>
        (forall i, i < length ids -> exists k, k < length (bids q) /\ nth k (bids q) 0 = nth i ids 0 /\ near (nth k (pts q) []) i) /\
        (forall k, k < length (bids q) -> exists i, i < length ids /\ nth k (bids q) 0 = nth i ids 0 /\ near (nth k (pts q) []) i))).
Proof. exact C77_cover_partial_proof. Qed.
Print Assumptions C77_cover_partial.

(** The points of C77_average_partial_ex meet the hypotheses with [m = 5]. *)
Example C77_cover_partial_ex :
  cloud GPU 0 2 ex77_rows ex77_ids 2 (seg 2 ex77_rows ex77_ids 2) /\ float32_batch 2 ex77_rows ex77_ids /\ valid_sizes 2 (map f32 [1#1]) /\
  (forall d, d < 2 -> (pow2 (-100) <= nth d (all_dims 2 (map f32 [1#1])) 0)%Q /\ (nth d (all_dims 2 (map f32 [1#1])) 0 <= pow2 100)%Q) /\
  (forall i d, i < 3 -> d < 2 -> (Qabs (xc ex77_rows i d) <= inject_Z 5 * nth d (all_dims 2 (map f32 [1#1])) 0)%Q) /\
  (forall lo i d, i < 3 -> d < 2 -> lower_corner32 2 ex77_rows ex77_ids (nth i ex77_ids 0) lo -> (Qabs (nth d lo 0) <= inject_Z 5 * nth d (all_dims 2 (map f32 [1#1])) 0)%Q).
Proof. exact C77_cover_partial_ex_proof. Qed.
