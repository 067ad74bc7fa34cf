(** Properties of the CUDA sampling operation (C44, C45).
    Generated by tools/gen_props.py from GpuSampleProofs.v: statements only. *)
From Coq Require Import String List Arith ZArith NArith QArith Qround Lia Lqa Bool Permutation.
From Verif Require Import Tensor TensorFacts Spec PointCloud SpecCloud History PointCloudFacts QFacts Grid SpecGrid GridFacts Neighbors SpecNeighbors NeighborFacts NeighborProofs Neighborhood NeighborhoodFacts Sampling SpecSampling SamplingFacts SamplingProofs
  Cuda CudaFacts AddFacts GpuGrid GpuGridFacts GpuGridProofs GpuScan SpecGpu GpuNeighbors GpuCountFacts SlotFacts GpuStoreFacts GpuNeighborFacts GpuRangeFacts GpuGeometry GpuSearchFacts GpuNeighborProofs
  GpuSampling UniqueFacts PoissonFacts SampleFacts SpecGpuSampling GpuSampleFacts.
From Verif Require Import GpuSampleProofs.
Import ListNotations.
Local Open Scope nat_scope.

(** C44. For every cloud of dimension 2 to 6 with a grid built by the CUDA
    operations, and every neighborhood of the grid with itself whose list has
    exactly the pairs of points inside the ellipsoid of the radii (repeated
    rows are allowed), the radii being at most the cell sizes: for every
    interleaving of the threads of every kernel launch on a device of any size,
    Poisson disk sampling completes and the returned indices are a Poisson disk
    sample: none is in the ellipsoid of another one and every point is in the
    ellipsoid of one. The returned points and elements are those at the
    returned indices. *)
Theorem C44_poisson :
  forall gactive active warp eps D rows ids B cs p radii mode,
    gactive <> 0 -> (forall k, active k <> 0) -> warp <> 0 -> 2 <= D <= 6 -> ids <> [] ->
    cloud GPU eps D rows ids B p -> valid_sizes D cs -> valid_sizes D radii ->
    (forall d, (d < D)%nat -> nth d (all_dims D radii) 1 <= nth d (all_dims D cs) 1)%Q ->
    means mode poisson_names ->
    mk_grid_gpu gactive warp eps p cs (fun g => forall n,
      ngrid n = g -> delimits (rdata (nranges n)) (nnbs n) (length ids) ->
      (forall j i, In (j, i) (nnbs n) <-> inside_ellipsoid D (all_dims D radii) (gspts g) (gsbids g) (gspts g) (gsbids g) j i) ->
      sample_gpu active warp n mode (fun q o => exists sel, o = Some sel /\
        ellipsoid_sample D (all_dims D radii) rows ids sel /\
        pts q = map (fun i => nth i rows []) sel /\ bids q = map (fun i => nth i ids 0) sel)).
Proof. exact C44_poisson_proof. Qed.
Print Assumptions C44_poisson.

(** C44. The same for all steps on the GPU: grid, neighborhood and sampling.
    Partial: with the conditions of C41 (a number of points that the prefix sum
    handles without a race, and three cells along the last axis in dimension 4
    to 6). The result is a point cloud of the same batch size. *)
Theorem C44_pipeline_partial :
  forall active sactive warp time eps D rows ids B cs p radii mode,
    (forall k, active k <> 0) -> (forall k, sactive k <> 0) -> warp <> 0 -> (exists q, 2 ^ 8 * 2 = q * (2 * warp)) ->
    2 <= D <= 6 -> ids <> [] -> cloud GPU eps D rows ids B p -> valid_sizes D cs -> valid_sizes D radii ->
    (forall d, (d < D)%nat -> nth d (all_dims D radii) 1 <= nth d (all_dims D cs) 1)%Q ->
    length ids <= 2 ^ 8 * 2 + active KScan * (2 * warp) -> means mode poisson_names ->
    mk_grid_gpu (active KKeys) warp eps p cs (fun g =>
      (D <= 3 \/ (3 <= nth (D - 1) (gnc g) 0)%Z) ->
      mk_nbh_gpu active warp time g radii 0 (fun n =>
        sample_gpu sactive warp n mode (fun q o => exists sel, o = Some sel /\
          ellipsoid_sample D (all_dims D radii) rows ids sel /\
          cloud GPU eps D (map (fun i => nth i rows []) sel) (map (fun i => nth i ids 0) sel) B q))).
Proof. exact C44_pipeline_partial_proof. Qed.
Print Assumptions C44_pipeline_partial.

(** C45. For every cloud of dimension 2 to 6 with a grid built by the CUDA
    operations and every neighborhood of it with one range per point: for every
    interleaving of the threads of every kernel launch, cell average sampling
    returns for every occupied cell of every element one point, the mean of the
    points of the cell, with the element of these points, and no indices. A
    point on the far boundary of the grid belongs to the last cell. *)
Theorem C45_average :
  forall gactive active warp eps D rows ids B cs p mode,
    gactive <> 0 -> (forall k, active k <> 0) -> warp <> 0 -> 2 <= D <= 6 -> ids <> [] ->
    cloud GPU eps D rows ids B p -> valid_sizes D cs -> (0 <= eps)%Q -> means mode average_names ->
    mk_grid_gpu gactive warp eps p cs (fun g => forall n,
      ngrid n = g -> length (rdata (nranges n)) = length ids ->
      sample_gpu active warp n mode (fun q o => o = None /\ dim q = D /\
        cell_means eps D (all_dims D cs) (fun d => nth d (gnc g) 0 - 1)%Z rows ids (pts q) (bids q))).
Proof. exact C45_average_proof. Qed.
Print Assumptions C45_average.

(** C45. When every point fits in the grid, the result meets the specification
    that C22 proves for the TensorFlow fallback: the cells are the same and
    every returned point is in its cell. *)
Theorem C45_agree :
  forall gactive active warp eps D rows ids B cs p mode,
    gactive <> 0 -> (forall k, active k <> 0) -> warp <> 0 -> 2 <= D <= 6 -> ids <> [] ->
    cloud GPU eps D rows ids B p -> valid_sizes D cs -> (0 <= eps)%Q -> fits eps D (all_dims D cs) rows ids -> means mode average_names ->
    mk_grid_gpu gactive warp eps p cs (fun g => forall n,
      ngrid n = g -> length (rdata (nranges n)) = length ids ->
      sample_gpu active warp n mode (fun q o => o = None /\ dim q = D /\
        cell_average eps D (all_dims D cs) rows ids (pts q) (bids q))).
Proof. exact C45_agree_proof. Qed.
Print Assumptions C45_agree.

(** Six points in two elements: points 2 and 3 are always selected, and exactly
    one of 0 and 1 and one of 4 and 5. *)
Example C44_pipeline_partial_ex :
  forall active sactive time, (forall k, active k <> 0) -> (forall k, sactive k <> 0) ->
  cloud GPU (1#1000) 2 exN_rows exN_ids 2 (seg 2 exN_rows exN_ids 2) /\
  mk_grid_gpu (active KKeys) 32 (1#1000) (seg 2 exN_rows exN_ids 2) [1#1] (fun g =>
    2 <= 3 \/ (3 <= nth (2 - 1) (gnc g) 0)%Z -> mk_nbh_gpu active 32 time g [1#1] 0 (fun n =>
      sample_gpu sactive 32 n "Poisson" (fun q o => exists sel, o = Some sel /\
        In 2 sel /\ In 3 sel /\ (In 0 sel <-> ~ In 1 sel) /\ (In 4 sel <-> ~ In 5 sel)))).
Proof. exact C44_pipeline_partial_ex_proof. Qed.

Example C44_poisson_ex :
  forall gactive active, gactive <> 0 -> (forall k, active k <> 0) ->
  mk_grid_gpu gactive 32 (1#1000) (seg 2 exN_rows exN_ids 2) [1#1] (fun g =>
    let n := Nbh g true (seg 2 (gspts g) (gsbids g) 2) [1#1;1#1] 0 (Ranges [6] exN_ends) exN_nbs exN_nbs in
    delimits exN_ends exN_nbs 6 /\
    (forall j i, In (j, i) exN_nbs <-> inside_ellipsoid 2 [1#1;1#1] (gspts g) (gsbids g) (gspts g) (gsbids g) j i) /\
    sample_gpu active 32 n "Poisson disk" (fun q o => exists sel, o = Some sel /\
        In 2 sel /\ In 3 sel /\ (In 0 sel <-> ~ In 1 sel) /\ (In 4 sel <-> ~ In 5 sel))).
Proof. exact C44_poisson_ex_proof. Qed.

(** The four occupied cells of the six points: the means are those that C22
    computes for the fallback, in an order that depends on the schedule. *)
Example C45_average_ex :
  forall gactive active, gactive <> 0 -> (forall k, active k <> 0) ->
  cloud GPU (1#1000) 2 exN_rows exN_ids 2 (seg 2 exN_rows exN_ids 2) /\
  mk_grid_gpu gactive 32 (1#1000) (seg 2 exN_rows exN_ids 2) [1#1] (fun g => forall n, ngrid n = g -> length (rdata (nranges n)) = 6 ->
    sample_gpu active 32 n "Average" (fun q o =>
      Permutation (combine (map (map Qred) (pts q)) (bids q)) [([7#10;7#10],1);([3#1;3#1],0);([5#2;0#1],0);([1#4;1#4],0)])).
Proof. exact C45_average_ex_proof. Qed.

Example C45_agree_ex :
  fits (1#1000) 2 (all_dims 2 [1#1]) exN_rows exN_ids /\ means "CELL average" average_names.
Proof. exact C45_agree_ex_proof. Qed.
