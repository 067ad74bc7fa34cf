(** The limit on the number of neighbors (C43).
    Generated by tools/gen_props.py from LimitProofs.v: statements only. *)
From Coq Require Import List Arith ZArith NArith QArith Qround Lia Lqa Bool Permutation.
From Verif Require Import Tensor TensorFacts Spec PointCloud SpecCloud History PointCloudFacts QFacts Grid SpecGrid GridFacts Neighbors SpecNeighbors NeighborFacts NeighborProofs
  Cuda CudaFacts CudaExec AddFacts GpuGrid GpuGridFacts GpuGridProofs GpuScan SpecGpu GpuScanFacts GpuScanRuns GpuScanProofs GpuNeighbors GpuCountFacts SlotFacts GpuStoreFacts LimitFacts GpuNeighborFacts GpuOpFacts
  GpuRangeFacts GpuGeometry GpuSearchFacts GpuNeighborProofs.
From Verif Require Import LimitProofs.
Import ListNotations.
Local Open Scope Z_scope.

(** C43, partial. With a limit that no center exceeds, every center gets all
    its neighbors, each once, for every schedule and every value of the clock
    the random numbers start from: the result is as without limit (C41). What
    is missing is the case in which some center has more neighbors; it is
    refuted below. *)
Theorem C43_few_neighbors_partial :
  forall active warp eps D rows ids B cs p ceps crows cids CB cp radii time k,
    (forall x, active x <> 0%nat) -> warp <> 0%nat -> (exists q, 2 ^ 8 * 2 = q * (2 * warp))%nat ->
    (2 <= D <= 6)%nat -> ids <> [] -> cloud GPU eps D rows ids B p -> valid_sizes D cs ->
    cids <> [] -> cloud GPU ceps D crows cids CB cp -> Forall (fun b => (b < B)%nat) cids -> valid_sizes D radii ->
    (forall d, (d < D)%nat -> nth d (all_dims D radii) 1 <= nth d (all_dims D cs) 1)%Q ->
    (length cids <= 2 ^ 8 * 2 + active KScan * (2 * warp))%nat ->
    (forall i, exists l, (length l <= k)%nat /\ forall j, inside_ellipsoid D (all_dims D radii) rows ids crows cids j i -> In j l) ->
    mk_grid_gpu (active KKeys) warp eps p cs (fun g =>
      (D <= 3)%nat \/ 3 <= nth (D - 1) (gnc g) 0 ->
      find_neighbors_gpu active warp time g cp radii k (fun ends nbs =>
        delimits ends nbs (length cids) /\ NoDup nbs /\
        forall j i, In (j, i) nbs <-> inside_ellipsoid D (all_dims D radii) (gspts g) (gsbids g) crows cids j i)).
Proof. exact C43_few_neighbors_partial_proof. Qed.
Print Assumptions C43_few_neighbors_partial.

(** C43 refuted. Two threads find the two neighbors of the only center, the
    limit is one. The thread that comes second at the first counter reads the
    second counter before the other one has advanced it, and writes before the
    start of the rows. *)
Theorem C43_race_refuted :
  cloud GPU (1#1000) 2 ex43_rows [0;0]%nat 1 (seg 2 ex43_rows [0;0]%nat 1) /\
  cloud GPU (1#1000) 2 [[0;0]%Q] [0]%nat 1 (seg 2 [[0;0]%Q] [0]%nat 1) /\
  mk_grid_gpu 1 32 (1#1000) (seg 2 ex43_rows [0;0]%nat 1) [1#1] (fun g =>
    ~ find_neighbors_gpu (fun _ => 1%nat) 32 0 g (seg 2 [[0;0]%Q] [0]%nat 1) [1#1] 1 (fun _ _ => True)).
Proof. exact C43_race_refuted_proof. Qed.
Print Assumptions C43_race_refuted.

(** C43 refuted. Even when the two threads run one after the other the row of
    the second one is written before the start of the rows for some values of
    the clock: the random number is truncated to 0 or 1, and 1 makes the slot
    negative. *)
Theorem C43_seed_refuted :
  mk_grid_gpu 1 32 (1#1000) (seg 2 ex43_rows [0;0]%nat 1) [1#1] (fun g =>
    ~ find_neighbors_gpu (fun _ => 1%nat) 32 1773068434 g (seg 2 [[0;0]%Q] [0]%nat 1) [1#1] 1 (fun _ _ => True)).
Proof. exact C43_seed_refuted_proof. Qed.
Print Assumptions C43_seed_refuted.

(** The clouds of the C41 example with the limit one, which no center exceeds. *)
Example C43_few_neighbors_partial_ex :
  forall active time, (forall k, active k <> 0%nat) ->
  mk_grid_gpu (active KKeys) 32 (1#1000) (seg 2 exN_rows exN_ids 2) [1#1] (fun g =>
    find_neighbors_gpu active 32 time g (seg 2 exN_centers exN_cids 2) [1#1] 1 (fun ends nbs =>
      ends = [1;2;2;2;3] /\ nbs = [(4,0);(5,1);(0,4)]%nat)).
Proof. exact C43_few_neighbors_partial_ex_proof. Qed.
