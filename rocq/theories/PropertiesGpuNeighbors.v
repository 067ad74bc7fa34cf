(** The CUDA neighbor search
    Generated by tools/gen_props.py from GpuNeighborProofs.v: statements only. *)
From Coq Require Import List Arith ZArith NArith QArith Qround Lia Lqa Bool Permutation.
From Verif Require Import Tensor TensorFacts Spec PointCloud SpecCloud History PointCloudFacts QFacts Grid SpecGrid GridFacts Neighbors SpecNeighbors NeighborFacts NeighborProofs NeighborhoodFacts
  Cuda CudaFacts AddFacts GpuGrid GpuGridFacts GpuScan SpecGpu GpuNeighbors GpuCountFacts SlotFacts GpuStoreFacts GpuNeighborFacts GpuOpFacts GpuRangeFacts GpuGeometry GpuSearchFacts.
From Verif Require Import GpuNeighborProofs.
Import ListNotations.
Local Open Scope Z_scope.

(** C41, partial. The whole search as a user starts it: the grid of a cloud is
    built and searched by the CUDA operations. For every cloud of dimension 2
    to 6, all cell sizes, all centers and all radii up to the cell sizes, for
    every interleaving of the threads of every kernel launch on a device of
    any size: the operations complete, the ranges delimit the rows of every
    center, no row occurs twice, and the rows are exactly the pairs of a grid
    point and a center of the same element inside the ellipsoid of the radii.
    Partial: the number of centers is at most what the prefix sum handles
    without a race (C42), and in dimension 4 to 6 the grid has at least three
    cells along the last axis: the two refutations below show that rows are
    repeated otherwise. *)
Theorem C41_search_partial :
  forall active warp eps D rows ids B cs p ceps crows cids CB cp radii time,
    (forall k, active k <> 0%nat) -> warp <> 0%nat -> (exists q, 2 ^ 8 * 2 = q * (2 * warp))%nat ->
    (2 <= D <= 6)%nat -> ids <> [] -> cloud GPU eps D rows ids B p -> valid_sizes D cs ->
    cids <> [] -> cloud GPU ceps D crows cids CB cp -> Forall (fun b => (b < B)%nat) cids -> valid_sizes D radii ->
    (forall d, (d < D)%nat -> nth d (all_dims D radii) 1 <= nth d (all_dims D cs) 1)%Q ->
    (length cids <= 2 ^ 8 * 2 + active KScan * (2 * warp))%nat ->
    mk_grid_gpu (active KKeys) warp eps p cs (fun g =>
      (D <= 3)%nat \/ 3 <= nth (D - 1) (gnc g) 0 ->
      find_neighbors_gpu active warp time g cp radii 0 (fun ends nbs =>
        delimits ends nbs (length cids) /\ NoDup nbs /\
        forall j i, In (j, i) nbs <-> inside_ellipsoid D (all_dims D radii) (gspts g) (gsbids g) crows cids j i)).
Proof. exact C41_search_partial_proof. Qed.
Print Assumptions C41_search_partial.

Example C41_search_partial_ex :
  forall active time, (forall k, active k <> 0%nat) ->
  cloud GPU (1#1000) 2 exN_rows exN_ids 2 (seg 2 exN_rows exN_ids 2) /\
  cloud GPU (1#1000) 2 exN_centers exN_cids 2 (seg 2 exN_centers exN_cids 2) /\
  mk_grid_gpu (active KKeys) 32 (1#1000) (seg 2 exN_rows exN_ids 2) [1#1] (fun g =>
    gnc g = [4; 4] /\ gspts g = [[1#2;1#2];[9#10;9#10];[3#1;3#1];[5#2;0#1];[0#1;0#1];[1#2;1#2]] /\
    find_neighbors_gpu active 32 time g (seg 2 exN_centers exN_cids 2) [1#1] 0 (fun ends nbs =>
      ends = [1;2;2;2;3] /\ nbs = [(4,0);(5,1);(0,4)]%nat)).
Proof. exact C41_search_partial_ex_proof. Qed.

Theorem C41_four_dimensions_refuted :
  forall active time, (forall k, active k <> 0%nat) ->
  cloud GPU (1#1000) 4 ex41_rows [0;0]%nat 1 (seg 4 ex41_rows [0;0]%nat 1) /\
  mk_grid_gpu (active KKeys) 32 (1#1000) (seg 4 ex41_rows [0;0]%nat 1) [1#1] (fun g =>
    find_neighbors_gpu active 32 time g (seg 4 ex41_rows [0;0]%nat 1) [1#1] 0 (fun ends nbs =>
      gnc g = [1;1;2;1] /\ ends = [2;4] /\ nbs = [(1,0);(1,0);(0,1);(0,1)]%nat)).
Proof. exact C41_four_dimensions_refuted_proof. Qed.
Print Assumptions C41_four_dimensions_refuted.

Theorem C41_two_cells_refuted :
  forall active time, (forall k, active k <> 0%nat) ->
  cloud GPU (1#1000) 4 ex41_rows' [0;0;0]%nat 1 (seg 4 ex41_rows' [0;0;0]%nat 1) /\
  cloud GPU (1#1000) 4 [[0;0;9#10;11#10]%Q] [0]%nat 1 (seg 4 [[0;0;9#10;11#10]%Q] [0]%nat 1) /\
  mk_grid_gpu (active KKeys) 32 (1#1000) (seg 4 ex41_rows' [0;0;0]%nat 1) [1#1] (fun g =>
    find_neighbors_gpu active 32 time g (seg 4 [[0;0;9#10;11#10]%Q] [0]%nat 1) [1#1] 0 (fun ends nbs =>
      gnc g = [1;1;2;2] /\ ends = [3] /\ ~ NoDup nbs)).
Proof. exact C41_two_cells_refuted_proof. Qed.
Print Assumptions C41_two_cells_refuted.

Theorem C41_no_centers_refuted :
  forall active warp eps D rows ids B cs p ceps CB cp radii k time,
    (forall k, active k <> 0%nat) -> warp <> 0%nat ->
    (2 <= D <= 6)%nat -> ids <> [] -> cloud GPU eps D rows ids B p -> valid_sizes D cs -> cloud GPU ceps D [] [] CB cp ->
    mk_grid_gpu (active KKeys) warp eps p cs (fun g =>
      ~ find_neighbors_gpu active warp time g cp radii k (fun _ _ => True)).
Proof. exact C41_no_centers_refuted_proof. Qed.
Print Assumptions C41_no_centers_refuted.
