(** CUDA search in float32 (C73)
    Generated by tools/gen_props.py from GpuFloatSearchProofs.v: statements only. *)
From Coq Require Import List Arith ZArith NArith QArith Qround Qabs Lia Lqa Bool Permutation Sorted.
From Verif Require Import Tensor TensorFacts Spec PointCloud SpecCloud History PointCloudFacts QFacts CloudProofs
  Grid SpecGrid GridFacts GridProofs Neighbors SpecNeighbors NeighborFacts NeighborProofs NeighborhoodFacts
  Cuda CudaFacts AddFacts GpuGrid GpuGridFacts GpuGridProofs GpuScan SpecGpu GpuNeighbors GpuCountFacts SlotFacts GpuStoreFacts
  GpuNeighborFacts GpuOpFacts GpuRangeFacts GpuGeometry GpuSearchFacts GpuNeighborProofs
  Float FloatFacts FloatGrid SpecFloat FloatGridFacts FloatProofs GpuFloat SpecGpuFloat GpuFloatProofs GpuFloatSearch GpuNearFacts.
From Verif Require Import GpuFloatSearchProofs.
Import ListNotations.
Local Open Scope Z_scope.

(** C73, partial. The search in float32 as the CUDA operations do it, on the grid
    they build: for every cloud of dimension 2 to 6, all cell sizes, centers and
    radii up to the cell sizes, every device and schedule and either way of
    rounding: the operations complete, the ranges delimit the rows of every
    center, no row occurs twice, every row is a pair of a grid point and a
    center of the same element with the point inside the ellipsoid of the radii
    enlarged by 4 / 2^20, and every such pair inside the ellipsoid of the radii
    reduced by a fraction of (m + 4) / 2^20 is a row, where the coordinates of
    points, centers and corners are within [m] cells of the origin. Partial:
    besides the restrictions of C41, pairs inside the radius can be lost: the
    theorem below shows one with a distance of less than 4/5 of the radius. *)
Theorem C73_search_partial :
  forall fused active warp eps D rows ids B cs p ceps crows cids CB cp radii time (m : Z),
    (forall x, active x <> 0%nat) -> warp <> 0%nat -> (exists q, 2 ^ 8 * 2 = q * (2 * warp))%nat ->
    (2 <= D <= 6)%nat -> ids <> [] -> cloud GPU eps D rows ids B p -> valid_sizes D (map f32 cs) ->
    cids <> [] -> cloud GPU ceps D crows cids CB cp -> Forall (fun b => (b < B)%nat) cids -> valid_sizes D (map f32 radii) ->
    let c d := nth d (all_dims D (map f32 cs)) 0%Q in
    let rs := all_dims D (map f32 radii) in
    (forall d, (d < D)%nat -> pow2 (-100) <= nth d rs 0 /\ nth d rs 0 <= c d /\ c d <= pow2 100)%Q ->
    0 <= m -> m + 4 < 2 ^ 20 ->
    (forall d, (d < D)%nat ->
       (forall i, (i < length ids)%nat -> Qabs (xc rows i d) <= inject_Z m * c d)%Q /\
       (forall i, (i < length cids)%nat -> Qabs (xc crows i d) <= inject_Z m * c d)%Q /\
       (forall b lo, In b ids -> lower_corner32 D rows ids b lo -> Qabs (nth d lo 0) <= inject_Z m * c d)%Q) ->
    (length cids <= 2 ^ 8 * 2 + active KScan * (2 * warp))%nat ->
    mk_grid_gpu32 fused (active KKeys) warp p cs (fun g =>
      (D <= 3)%nat \/ 3 <= nth (D - 1) (gnc g) 0 ->
      find_neighbors_gpu32 fused active warp time g cp radii 0 (fun ends nbs =>
        delimits ends nbs (length cids) /\ NoDup nbs /\
        (forall j i, In (j, i) nbs -> inside_ellipsoid D (times_radii (1 + 4 / 1048576) rs) (gspts g) (gsbids g) crows cids j i) /\
        (forall j i, inside_ellipsoid D (times_radii (1 - (inject_Z m + 4) / 1048576) rs) (gspts g) (gsbids g) crows cids j i -> In (j, i) nbs))).
Proof. exact C73_search_partial_proof. Qed.
Print Assumptions C73_search_partial.

(** C73, refuted without the reduction of the radius. Four points that float32
    represents, cells and radius 165/128: with two roundings, on every device
    and for every schedule, the rows of the search lack a pair whose distance is
    less than 4/5 of the radius. *)
Theorem C73_missed_refuted :
  exists rows ids p c,
    cloud GPU 0 2 rows ids 1 p /\ float32_batch 2 rows ids /\ is_float32 c /\ valid_sizes 2 [c] /\
    forall active warp time, (forall x, active x <> 0%nat) -> warp <> 0%nat -> (exists q, 2 ^ 8 * 2 = q * (2 * warp))%nat ->
      mk_grid_gpu32 false (active KKeys) warp p [c] (fun g =>
        find_neighbors_gpu32 false active warp time g p [c] 0 (fun ends nbs =>
          exists j i, inside_ellipsoid 2 (times_radii (4 / 5) (all_dims 2 [c])) (gspts g) (gsbids g) rows ids j i /\ ~ In (j, i) nbs)).
Proof. exact C73_missed_refuted_proof. Qed.
Print Assumptions C73_missed_refuted.

Example C73_search_partial_ex :
  cloud GPU 0 2 ex73_rows ex73_ids 1 ex73_cloud /\ valid_sizes 2 (map f32 [1#1]) /\
  let c d := nth d (all_dims 2 (map f32 [1#1])) 0%Q in
  (forall d, (d < 2)%nat -> pow2 (-100) <= c d /\ c d <= c d /\ c d <= pow2 100)%Q /\
  (forall d, (d < 2)%nat ->
     (forall i, (i < length ex73_ids)%nat -> Qabs (xc ex73_rows i d) <= inject_Z 3 * c d)%Q /\
     (forall b lo, In b ex73_ids -> lower_corner32 2 ex73_rows ex73_ids b lo -> Qabs (nth d lo 0) <= inject_Z 3 * c d)%Q) /\
  inside_ellipsoid 2 (times_radii (1 - (inject_Z 3 + 4) / 1048576) (all_dims 2 (map f32 [1#1]))) ex73_rows ex73_ids ex73_rows ex73_ids 0 1 /\
  ~ inside_ellipsoid 2 (times_radii (1 + 4 / 1048576) (all_dims 2 (map f32 [1#1]))) ex73_rows ex73_ids ex73_rows ex73_ids 0 2.
Proof. exact C73_search_partial_ex_proof. Qed.
