(** Sampling a sample again (C82).
    Generated by tools/gen_props.py from ResampleProofs.v: statements only. *)
From Coq Require Import String List Arith ZArith NArith QArith Qround Lia Lqa Bool Permutation.
From Verif Require Import Tensor TensorFacts Spec PointCloud SpecCloud History PointCloudFacts QFacts CloudProofs
  Grid SpecGrid GridFacts GridProofs Neighbors SpecNeighbors NeighborFacts NeighborProofs Neighborhood NeighborhoodFacts Sampling SpecSampling SamplingFacts SamplingProofs
  Hierarchy SpecHierarchy HierarchyFacts
  Cuda CudaFacts AddFacts GpuGrid GpuGridFacts GpuGridProofs GpuScan SpecGpu GpuNeighbors GpuCountFacts SlotFacts GpuStoreFacts
  GpuNeighborFacts GpuOpFacts GpuRangeFacts GpuGeometry GpuSearchFacts GpuNeighborProofs GpuSampling UniqueFacts PoissonFacts SampleFacts SpecGpuSampling GpuSampleFacts GpuSampleProofs.
From Verif Require Import ResampleProofs.
Import ListNotations.
Local Open Scope nat_scope.

(** C82, Poisson disk sampling. For every cloud that can be sampled and every
    sequence of draws: sampling the result again with the same radius, with any
    draws, returns all its points, each once with its element. Partial: a sample
    of one point cannot be sampled (C82_single_refuted). *)
Theorem C82_poisson_partial :
  forall eps D rows ids B p cs k g n mode dev fuel draws,
    (0 < eps)%Q -> (eps <= flt_max)%Q -> 2 <= D -> cloud GPU eps D rows ids B p ->
    valid_sizes D cs -> (nth 0 (all_dims D cs) 0 <= nth 1 (all_dims D cs) 0)%Q ->
    (Z.of_nat (length ids) < 2 ^ 31 - 1)%Z -> few_cells eps D (all_dims D cs) B (rows, ids) ->
    mk_grid GPU eps p cs = Ok g -> snd (mk_nbh (find_neighbors_tf GPU) g cs None k) = Ok n ->
    2 <= length ids -> length ids <= fuel -> means mode poisson_names ->
    exists q sel, sample dev fuel draws n mode = Some (Ok (q, Some sel)) /\
      poisson_sample D (nth 0 (all_dims D cs) 0%Q) rows ids sel /\
      (2 <= length sel -> forall k' dev' fuel' draws' mode', length sel <= fuel' -> means mode' poisson_names ->
         exists g' n' q' sel', mk_grid GPU eps q cs = Ok g' /\ snd (mk_nbh (find_neighbors_tf GPU) g' cs None k') = Ok n' /\
           sample dev' fuel' draws' n' mode' = Some (Ok (q', Some sel')) /\ Permutation sel' (seq 0 (length sel)) /\
           Permutation (combine (pts q') (bids q')) (combine (pts q) (bids q))).
Proof. exact C82_poisson_partial_proof. Qed.
Print Assumptions C82_poisson_partial.

(** C82, Poisson disk sampling with the CUDA operations, for every device and
    schedule of both samplings and radii up to the cell sizes: the second
    sampling returns all points of the first. Partial: with the conditions of
    C41. *)
Theorem C82_cuda_partial :
  forall active sactive active' sactive' warp time time' eps D rows ids B cs p radii mode mode',
    (forall k, active k <> 0) -> (forall k, sactive k <> 0) -> (forall k, active' k <> 0) -> (forall k, sactive' k <> 0) ->
    warp <> 0 -> (exists q, 2 ^ 8 * 2 = q * (2 * warp)) ->
    2 <= D <= 6 -> ids <> [] -> cloud GPU eps D rows ids B p -> valid_sizes D cs -> valid_sizes D radii ->
    (forall d, (d < D)%nat -> nth d (all_dims D radii) 1 <= nth d (all_dims D cs) 1)%Q ->
    length ids <= 2 ^ 8 * 2 + active KScan * (2 * warp) -> length ids <= 2 ^ 8 * 2 + active' KScan * (2 * warp) ->
    means mode poisson_names -> means mode' poisson_names ->
    mk_grid_gpu (active KKeys) warp eps p cs (fun g =>
      (D <= 3 \/ (3 <= nth (D - 1) (gnc g) 0)%Z) ->
      mk_nbh_gpu active warp time g radii 0 (fun n =>
        sample_gpu sactive warp n mode (fun q o => exists sel, o = Some sel /\
          ellipsoid_sample D (all_dims D radii) rows ids sel /\
          mk_grid_gpu (active' KKeys) warp eps q cs (fun g' =>
            (D <= 3 \/ (3 <= nth (D - 1) (gnc g') 0)%Z) ->
            mk_nbh_gpu active' warp time' g' radii 0 (fun n' =>
              sample_gpu sactive' warp n' mode' (fun q' o' => exists sel', o' = Some sel' /\
                Permutation sel' (seq 0 (length sel)) /\
                Permutation (combine (pts q') (bids q')) (combine (pts q) (bids q)))))))).
Proof. exact C82_cuda_partial_proof. Qed.
Print Assumptions C82_cuda_partial.

(** C82, single points. If the first sampling leaves one point, the second raises
    InvalidArgumentError. *)
Theorem C82_single_refuted :
  exists rows ids n q sel n', exS_nbh (1#1000) rows ids 1 [1#1] = Ok n /\
    sample GPU 2 (fun k => k) n "poisson" = Some (Ok (q, Some sel)) /\ length sel = 1 /\
    exS_nbh (1#1000) (pts q) (bids q) 1 [1#1] = Ok n' /\
    forall dev fuel draws, sample dev fuel draws n' "poisson" = Some (Err InvalidArgument).
Proof. exact C82_single_refuted_proof. Qed.
Print Assumptions C82_single_refuted.

(** C82, cell averages. Averaging the averages again with the same cells is
    another cloud: the box, and with it the cells, move with the points. Here two
    averages are merged, although they come from different cells. *)
Theorem C82_average_refuted :
  exists rows ids n q n' q', exS_nbh (1#1000) rows ids 1 [1#1] = Ok n /\
    sample GPU 0 (fun k => k) n "average" = Some (Ok (q, None)) /\ length (bids q) = 2 /\
    exS_nbh (1#1000) (pts q) (bids q) 1 [1#1] = Ok n' /\
    sample GPU 0 (fun k => k) n' "average" = Some (Ok (q', None)) /\ length (bids q') = 1.
Proof. exact C82_average_refuted_proof. Qed.
Print Assumptions C82_average_refuted.

(** Six points in two elements: four are selected, and selected again in another
    order. *)
Example C82_poisson_partial_ex :
  exists g n q g' n' q', cloud GPU (1#1000) 2 exN_rows exN_ids 2 (seg 2 exN_rows exN_ids 2) /\ valid_sizes 2 [1#1] /\
    few_cells (1#1000) 2 (all_dims 2 [1#1]) 2 (exN_rows, exN_ids) /\
    mk_grid GPU (1#1000) (seg 2 exN_rows exN_ids 2) [1#1] = Ok g /\ snd (mk_nbh (find_neighbors_tf GPU) g [1#1] None 0) = Ok n /\
    sample GPU 6 (fun k => k) n "poisson" = Some (Ok (q, Some [4;2;1;3])) /\
    mk_grid GPU (1#1000) q [1#1] = Ok g' /\ snd (mk_nbh (find_neighbors_tf GPU) g' [1#1] None 0) = Ok n' /\
    sample GPU 6 (fun k => 5 - k) n' "poisson" = Some (Ok (q', Some [3;1;2;0])).
Proof. exact C82_poisson_partial_ex_proof. Qed.

(** The same cloud on a device with one active block and warps of 32 threads. *)
Example C82_cuda_partial_ex :
  cloud GPU (1#1000) 2 exN_rows exN_ids 2 (seg 2 exN_rows exN_ids 2) /\ valid_sizes 2 [1#1] /\ (exists q, 2 ^ 8 * 2 = q * (2 * 32)) /\
  (forall d, (d < 2)%nat -> nth d (all_dims 2 [1#1]) 1 <= nth d (all_dims 2 [1#1]) 1)%Q /\
  length exN_ids <= 2 ^ 8 * 2 + 1 * (2 * 32) /\ ellipsoid_sample 2 (all_dims 2 [1#1]) exN_rows exN_ids [4; 2; 1; 3].
Proof. exact C82_cuda_partial_ex_proof. Qed.

(** The clouds of the two refutations: two points closer than the radius, and
    three points in two cells. *)
Example C82_single_refuted_ex : (dist2 2 [0#1;0#1] [1#4;1#4] < 1 * 1)%Q.
Proof. exact C82_single_refuted_ex_proof. Qed.

Example C82_average_refuted_ex :
  exists n q, exS_nbh (1#1000) [[0#1;0#1];[3#4;0#1];[1#1;0#1]] [0;0;0] 1 [1#1] = Ok n /\ sample GPU 0 (fun k => k) n "average" = Some (Ok (q, None)) /\ map (map Qred) (pts q) = [[1#1;0#1];[3#8;0#1]].
Proof. exact C82_average_refuted_ex_proof. Qed.
