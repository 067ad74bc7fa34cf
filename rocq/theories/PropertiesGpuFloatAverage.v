(** Cell averages with the CUDA operation in float32 (C77).
    Generated by tools/gen_props.py from GpuFloatAverageProofs.v: statements only. *)
From Coq Require Import String List Arith ZArith NArith QArith Qround Qabs Lia Lqa Bool Permutation Sorted.
From Verif Require Import Tensor TensorFacts Spec PointCloud SpecCloud History PointCloudFacts QFacts CloudProofs
  Grid SpecGrid GridFacts GridProofs Neighbors SpecNeighbors NeighborFacts NeighborProofs Neighborhood NeighborhoodFacts Sampling SpecSampling SamplingFacts SamplingProofs
  Cuda CudaFacts AddFacts GpuGrid GpuGridFacts GpuGridProofs GpuScan SpecGpu GpuNeighbors GpuCountFacts SlotFacts GpuStoreFacts
  GpuNeighborFacts GpuOpFacts GpuRangeFacts GpuGeometry GpuSearchFacts GpuNeighborProofs GpuSampling UniqueFacts PoissonFacts SampleFacts SpecGpuSampling GpuSampleFacts GpuSampleProofs
  Float FloatFacts FloatGrid SpecFloat FloatGridFacts FloatProofs GpuFloat SpecGpuFloat GpuFloatProofs GpuFloatSearch GpuNearFacts GpuFloatSearchProofs GpuFloatSampling
  FloatNorm FloatNormProofs FloatAverage SpecFloatAverage FloatAverageProofs GpuFloatAverage SpecGpuFloatAverage.
From Verif Require Import GpuFloatAverageProofs.
Import ListNotations.
Local Open Scope nat_scope.

(** C77, partial. Cell average sampling with the CUDA operations in float32. For
    every cloud of dimension 2 to 6 with coordinates of float32 and at most 2^23
    points, all cell sizes, every device and schedule and either way of rounding:
    the operation completes and returns for every occupied cell of every element,
    as the operation computes the cells, one point near the mean of the points of
    the cell, with their element. Partial: near the mean instead of equal to it
    (C77_equal_refuted). *)
Theorem C77_average_partial :
  forall fused gactive active warp eps D rows ids B p cs,
    gactive <> 0 -> (forall k, active k <> 0) -> warp <> 0 -> 2 <= D <= 6 -> ids <> [] ->
    cloud GPU eps D rows ids B p -> float32_batch D rows ids -> (Z.of_nat (length ids) <= 2 ^ 23)%Z -> valid_sizes D (map f32 cs) ->
    mk_grid_gpu32 fused gactive warp p cs (fun g => forall n,
      ngrid n = g -> length (rdata (nranges n)) = length ids ->
      sample_average_gpu32 active warp n (fun q => dim q = D /\ bsize q = bsize (nsampled n) /\
        device_average32 fused D (all_dims D (map f32 cs)) (gnc g) rows ids (pts q) (bids q))).
Proof. exact C77_average_partial_proof. Qed.
Print Assumptions C77_average_partial.

(** C77, equality refuted. The average of three equal points, computed in float32,
    is another point, on every device and with either way of rounding. *)
Theorem C77_equal_refuted :
  exists rows ids p, cloud GPU 0 2 rows ids 1 p /\ float32_batch 2 rows ids /\ rows = repeat [ex76_x; ex76_x] 3 /\
    forall fused gactive active warp, gactive <> 0 -> (forall k, active k <> 0) -> warp <> 0 ->
      mk_grid_gpu32 fused gactive warp p [1%Q] (fun g => forall n, ngrid n = g -> length (rdata (nranges n)) = 3 ->
        sample_average_gpu32 active warp n (fun q => length (pts q) = 1 /\ forall d, d < 2 -> ~ (nth d (nth 0 (pts q) []) 0 == ex76_x)%Q)).
Proof. exact C77_equal_refuted_proof. Qed.
Print Assumptions C77_equal_refuted.

(** Two points in one cell of the first element and one point of the second: the
    averages, in an order that depends on the schedule. *)
Example C77_average_partial_ex :
  forall fused gactive active, gactive <> 0 -> (forall k, active k <> 0) ->
    cloud GPU 0 2 ex77_rows ex77_ids 2 (seg 2 ex77_rows ex77_ids 2) /\ float32_batch 2 ex77_rows ex77_ids /\ valid_sizes 2 (map f32 [1#1]) /\
    mk_grid_gpu32 fused gactive 32 (seg 2 ex77_rows ex77_ids 2) [1#1] (fun g => forall n, ngrid n = g -> length (rdata (nranges n)) = 3 ->
      sample_average_gpu32 active 32 n (fun q => Permutation (combine (map (map Qred) (pts q)) (bids q)) [([5#1;1#1], 1); ([1#4;1#8], 0)])).
Proof. exact C77_average_partial_ex_proof. Qed.

(** Two float32 operations for the three equal points, then the division. *)
Example C77_equal_refuted_ex : is_float32 ex76_x /\ avg_point32 2 (repeat [ex76_x; ex76_x] 3) <> [ex76_x; ex76_x].
Proof. exact C77_equal_refuted_ex_proof. Qed.
