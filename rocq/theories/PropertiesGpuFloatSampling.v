(** Poisson disk sampling with the CUDA operations in float32 (C74)
    Generated by tools/gen_props.py from GpuFloatSampleProofs.v: statements only. *)
From Coq Require Import String List Arith ZArith NArith QArith Qround Qabs Lia Lqa Bool Permutation Sorted.
From Verif Require Import Tensor TensorFacts Spec PointCloud SpecCloud History PointCloudFacts QFacts CloudProofs
  Grid SpecGrid GridFacts GridProofs Neighbors SpecNeighbors NeighborFacts NeighborProofs Neighborhood NeighborhoodFacts Sampling SpecSampling SamplingFacts SamplingProofs
  Cuda CudaFacts AddFacts GpuGrid GpuGridFacts GpuGridProofs GpuScan SpecGpu GpuNeighbors GpuCountFacts SlotFacts GpuStoreFacts
  GpuNeighborFacts GpuOpFacts GpuRangeFacts GpuGeometry GpuSearchFacts GpuNeighborProofs GpuSampling UniqueFacts PoissonFacts SampleFacts SpecGpuSampling GpuSampleFacts GpuSampleProofs
  Float FloatFacts FloatGrid SpecFloat FloatGridFacts FloatProofs GpuFloat SpecGpuFloat GpuFloatProofs GpuFloatSearch GpuNearFacts GpuFloatSearchProofs GpuFloatSampling.
From Verif Require Import GpuFloatSampleProofs.
Import ListNotations.
Local Open Scope nat_scope.

(** C74, partial. Poisson disk sampling with all steps as the CUDA operations do
    them in float32: grid, neighborhood of the grid with itself, sampling. For
    every cloud of dimension 2 to 6, all cell sizes and radii up to them, every
    device and schedule and either way of rounding: the operations complete and
    return the points and elements of a list of distinct indices such that no
    selected point is inside the ellipsoid of another one for the radii reduced
    by a fraction of (m + 4) / 2^20, and every point is inside the ellipsoid of a
    selected one for the radii enlarged by 4 / 2^20. The coordinates of points
    and corners are within [m] cells of the origin. Partial: with the conditions
    of C41, and for the reduced radii. *)
Theorem C74_sample_partial :
  forall fused active sactive warp eps D rows ids B cs p radii time mode (m : Z),
    (forall x, active x <> 0) -> (forall k, sactive k <> 0) -> warp <> 0 -> (exists q, 2 ^ 8 * 2 = q * (2 * warp)) ->
    2 <= D <= 6 -> ids <> [] -> cloud GPU eps D rows ids B p -> valid_sizes D (map f32 cs) -> valid_sizes D (map f32 radii) ->
    let c d := nth d (all_dims D (map f32 cs)) 0%Q in
    let rs := all_dims D (map f32 radii) in
    (forall d, (d < D)%nat -> pow2 (-100) <= nth d rs 0 /\ nth d rs 0 <= c d /\ c d <= pow2 100)%Q ->
    (0 <= m)%Z -> (m + 4 < 2 ^ 20)%Z ->
    (forall d, d < D ->
       (forall i, (i < length ids)%nat -> Qabs (xc rows i d) <= inject_Z m * c d)%Q /\
       (forall b lo, In b ids -> lower_corner32 D rows ids b lo -> Qabs (nth d lo 0) <= inject_Z m * c d)%Q) ->
    length ids <= 2 ^ 8 * 2 + active KScan * (2 * warp) -> means mode poisson_names ->
    mk_grid_gpu32 fused (active KKeys) warp p cs (fun g =>
      D <= 3 \/ (3 <= nth (D - 1) (gnc g) 0)%Z ->
      mk_nbh_gpu32 fused active warp time g radii 0 (fun n =>
        sample_gpu sactive warp n mode (fun q o => exists sel, o = Some sel /\
          spread_sample D (times_radii (1 - (inject_Z m + 4) / 1048576) rs) (times_radii (1 + 4 / 1048576) rs) rows ids sel /\
          cloud GPU eps D (map (fun i => nth i rows []) sel) (map (fun i => nth i ids 0) sel) B q))).
Proof. exact C74_sample_partial_proof. Qed.
Print Assumptions C74_sample_partial.

(** C74, refuted without the reduction of the radius. Four points that float32
    represents, cells and radius 165/128: with two roundings, on every device
    and for every schedule, two points are selected whose distance is less than
    4/5 of the radius. *)
Theorem C74_close_refuted :
  exists rows ids p c,
    cloud GPU 0 2 rows ids 1 p /\ float32_batch 2 rows ids /\ is_float32 c /\ valid_sizes 2 [c] /\
    forall active sactive warp time mode, (forall x, active x <> 0) -> (forall k, sactive k <> 0) -> warp <> 0 -> (exists q, 2 ^ 8 * 2 = q * (2 * warp)) ->
      means mode poisson_names ->
      mk_grid_gpu32 false (active KKeys) warp p [c] (fun g =>
        mk_nbh_gpu32 false active warp time g [c] 0 (fun n =>
          sample_gpu sactive warp n mode (fun q o => exists sel i j, o = Some sel /\ In i sel /\ In j sel /\ i <> j /\
            inside_ellipsoid 2 (times_radii (4 / 5) (all_dims 2 [c])) rows ids rows ids i j))).
Proof. exact C74_close_refuted_proof. Qed.
Print Assumptions C74_close_refuted.

(** The cloud of three points of C73, for which the first two are too close to
    be selected both. *)
Example C74_sample_partial_ex :
  cloud GPU 0 2 ex73_rows ex73_ids 1 ex73_cloud /\ valid_sizes 2 (map f32 [1#1]) /\
  let c d := nth d (all_dims 2 (map f32 [1#1])) 0%Q in
  (forall d, (d < 2)%nat -> pow2 (-100) <= c d /\ c d <= c d /\ c d <= pow2 100)%Q /\
  (forall d, d < 2 ->
     (forall i, (i < length ex73_ids)%nat -> Qabs (xc ex73_rows i d) <= inject_Z 3 * c d)%Q /\
     (forall b lo, In b ex73_ids -> lower_corner32 2 ex73_rows ex73_ids b lo -> Qabs (nth d lo 0) <= inject_Z 3 * c d)%Q) /\
  forall sel, spread_sample 2 (times_radii (1 - (inject_Z 3 + 4) / 1048576) (all_dims 2 (map f32 [1#1]))) (times_radii (1 + 4 / 1048576) (all_dims 2 (map f32 [1#1]))) ex73_rows ex73_ids sel ->
    In 2 sel /\ (In 0 sel <-> ~ In 1 sel).
Proof. exact C74_sample_partial_ex_proof. Qed.
