(** Hierarchies with the CUDA operations (C64).
    Generated by tools/gen_props.py from CudaHierarchyProofs.v: statements only. *)
From Coq Require Import String List Arith ZArith NArith QArith Qround Lia Lqa Bool Permutation.
From Verif Require Import Tensor TensorFacts Spec PointCloud SpecCloud History PointCloudFacts QFacts Grid SpecGrid GridFacts Neighbors SpecNeighbors NeighborFacts NeighborProofs Neighborhood Sampling SpecSampling SamplingFacts SamplingProofs Hierarchy SpecHierarchy HierarchyFacts HierarchyProofs
  Cuda CudaFacts GpuGrid GpuGridFacts GpuGridProofs SpecGpu GpuNeighbors GpuSampling SpecGpuSampling GpuSampleFacts GpuSampleProofs
  SpecCudaLayers SpecCudaNetwork CudaLayers CudaNetwork CudaHierarchyFacts LevelFacts SpecLayers SpecMatch MatchFacts MatchLevel.
From Verif Require Import CudaHierarchyProofs.
Import ListNotations.
Local Open Scope nat_scope.

(** C64. With the CUDA operations, for every interleaving of the threads of every
    kernel launch on a device of any size, building the hierarchy succeeds. It
    has one level more than there are cell sizes, level 0 is the given cloud, every
    level keeps batch size and batch shape and is a Poisson sample for the
    ellipsoid of the sizes respectively the cell average of the level above;
    between any two levels no element gains points or becomes empty, and with
    Poisson sampling the lower one is a subset of the upper one. Unlike with the
    fallback (C25) levels with a single point are no problem. *)
Theorem C64_hierarchy_partial :
  forall active sactive pactive bactive warp time eps D rows ids B p sizes mode,
    device_samples active sactive pactive bactive warp ->
    cloud GPU eps D rows ids B p -> cuda_buildable (scan_limit active warp) eps D ids sizes ->
    means mode poisson_names \/ means mode average_names ->
    mk_hierarchy_gpu active sactive warp time eps p (map CVector sizes) mode (fun h => exists data,
      h_len h = S (length sizes) /\
      chain (next_level_cuda mode eps D) (map (filled_with_first D) sizes) ((rows, ids) :: data) /\
      (forall i b, nth_error ((rows, ids) :: data) i = Some b ->
         exists q, h_getitem h (Z.of_nat i) = Ok q /\
           cloud GPU eps D (fst b) (snd b) B q /\ bshape q = bshape p) /\
      (forall i j b b', i <= j -> nth_error ((rows, ids) :: data) i = Some b ->
         nth_error ((rows, ids) :: data) j = Some b' ->
         thinned b b' /\ (means mode poisson_names -> subset_of b b'))).
Proof. exact C64_hierarchy_partial_proof. Qed.
Print Assumptions C64_hierarchy_partial.

(** C64. With one cell size per level, which then is the radius of the Poisson
    sampling, every level meets the specification of C25. *)
Theorem C64_equal_sizes_partial :
  forall active sactive pactive bactive warp time eps D rows ids B p radii mode,
    device_samples active sactive pactive bactive warp ->
    cloud GPU eps D rows ids B p -> cuda_buildable (scan_limit active warp) eps D ids (map (fun r => [r]) radii) ->
    means mode poisson_names \/ means mode average_names ->
    mk_hierarchy_gpu active sactive warp time eps p (map (fun r => CVector [r]) radii) mode (fun h => exists data,
      chain (next_level mode eps D) (map (fun r => repeat r D) radii) ((rows, ids) :: data) /\
      Forall2 (fun b q => cloud GPU eps D (fst b) (snd b) B q /\ bshape q = bshape p) ((rows, ids) :: data) (hclouds h)).
Proof. exact C64_equal_sizes_partial_proof. Qed.
Print Assumptions C64_equal_sizes_partial.

(** C64. With cell average sampling the hierarchy built with the CUDA operations
    and the one built with the TensorFlow fallback have the same points on every
    level, for every interleaving of the threads: the points of an element can
    differ in their order only. *)
Theorem C64_same_as_fallback_partial :
  forall active sactive pactive bactive warp time eps D rows ids B p sizes mode fuel draws h',
    device_samples active sactive pactive bactive warp ->
    cloud GPU eps D rows ids B p -> cuda_buildable (scan_limit active warp) eps D ids sizes ->
    means mode average_names -> buildable eps D rows ids B sizes fuel ->
    mk_hierarchy GPU eps (find_neighbors_tf GPU) fuel draws p (map CVector sizes) mode = Some (Ok h') ->
    mk_hierarchy_gpu active sactive warp time eps p (map CVector sizes) mode (fun h =>
      h_len h = h_len h' /\ hcells h = hcells h' /\ hbshape h = hbshape h' /\
      forall i q q' e, h_getitem h (Z.of_nat i) = Ok q -> h_getitem h' (Z.of_nat i) = Ok q' -> e < B ->
        exists ps, matched D (fun _ => 0%Q) e (pts q, bids q) e (pts q', bids q') ps).
Proof. exact C64_same_as_fallback_partial_proof. Qed.
Print Assumptions C64_same_as_fallback_partial.

(** A cloud that the fallback cannot put into a hierarchy (C25). *)
Example C64_hierarchy_partial_ex :
  forall active sactive pactive bactive warp time, device_samples active sactive pactive bactive warp ->
    cloud GPU (1#1000) 2 ex64_rows [0; 0; 0] 1 (seg 2 ex64_rows [0; 0; 0] 1) /\
    cuda_buildable (scan_limit active warp) (1#1000) 2 [0; 0; 0] [[1#1]; [1#1]] /\
    mk_hierarchy_gpu active sactive warp time (1#1000) (seg 2 ex64_rows [0; 0; 0] 1) [CVector [1#1]; CVector [1#1]] "poisson"
      (fun h => map (fun q => length (pts q)) (hclouds h) = [3; 1; 1]).
Proof. exact C64_hierarchy_partial_ex_proof. Qed.

Example C64_equal_sizes_partial_ex :
  cloud GPU (1#1000) 2 exN_rows exN_ids 2 (seg 2 exN_rows exN_ids 2) /\
  (forall active warp, cuda_buildable (scan_limit active warp) (1#1000) 2 exN_ids (map (fun r => [r]) [1#1; 4#1]%Q)) /\
  device_samples (fun _ => 1) (fun _ => 2) 3 5 32.
Proof. exact C64_equal_sizes_partial_ex_proof. Qed.

Example C64_same_as_fallback_partial_ex :
  buildable (1#1000) 2 exN_rows exN_ids 2 [[1#1]; [4#1]] 6 /\
  exists h', mk_hierarchy GPU (1#1000) (find_neighbors_tf GPU) 6 (fun _ k => k) (seg 2 exN_rows exN_ids 2)
      [CVector [1#1]; CVector [4#1]] "cell average" = Some (Ok h') /\
    map (fun q => length (pts q)) (hclouds h') = [6; 4; 2] /\
    forall active sactive pactive bactive warp time, device_samples active sactive pactive bactive warp ->
      mk_hierarchy_gpu active sactive warp time (1#1000) (seg 2 exN_rows exN_ids 2) [CVector [1#1]; CVector [4#1]] "cell average"
        (fun h => map (fun q => length (pts q)) (hclouds h) = [6; 4; 2]).
Proof. exact C64_same_as_fallback_partial_ex_proof. Qed.
