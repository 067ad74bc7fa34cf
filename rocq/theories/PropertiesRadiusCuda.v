(** A larger radius loses no neighbor with the CUDA operations (C85).
    Generated by tools/gen_props.py from RadiusCudaProofs.v: statements only. *)
From Coq Require Import String List Arith ZArith NArith QArith Reals Qreals Lia Lra Bool Permutation.
From Verif Require Import GpuBasis GpuPdf Cuda GpuGrid GpuNeighbors Tensor TensorFacts Spec SpecText TextFacts PointCloud SpecCloud PointCloudFacts QFacts Grid SpecGrid GridFacts
  Neighbors SpecNeighbors NeighborFacts NeighborProofs Neighborhood NeighborhoodFacts NeighborhoodProofs
  Sampling SpecSampling SamplingFacts SamplingProofs Hierarchy SpecHierarchy HierarchyFacts Pdf SpecPdf PdfFacts PdfProofs
  RTensor RTensorFacts Layers SpecLayers LayerFacts LayerLink LayerProofs ConvProofs MoveProofs BlockFacts
  CudaLayers SpecCudaLayers CudaLayerFacts CudaConvFacts CudaLayerProofs LinearProofs SpecMonotone MonotoneProofs MonotoneCudaProofs RadiusProofs.
From Verif Require Import RadiusCudaProofs.
Import ListNotations.
Local Open Scope nat_scope.

(** C85, neighborhoods with the CUDA operations: two grids and two searches, each
    under any schedule. *)
Theorem C85_neighbors_cuda_partial :
  forall active pactive bactive warp time1 time2 eps D r1 r2 rows ids pin crows cids pout,
    device_ok active pactive bactive warp ->
    cuda_workable (scan_limit active warp) eps D r1 rows ids pin crows cids pout ->
    cuda_workable (scan_limit active warp) eps D r2 rows ids pin crows cids pout -> (r1 <= r2)%Q ->
    let search := fun time r P =>
      mk_grid_gpu (active KKeys) warp eps pin (repeat r D) (fun g => neighborhood_gpu active warp time g (repeat r D) (Some pout) 0 P) in
    search time1 r1 (fun n1 => search time2 r2 (fun n2 =>
      NoDup (norig n1) /\ NoDup (norig n2) /\ incl (norig n1) (norig n2) /\ length (norig n1) <= length (norig n2))).
Proof. exact C85_neighbors_cuda_partial_proof. Qed.
Print Assumptions C85_neighbors_cuda_partial.

(** C85, max pooling with the CUDA operations: two calls, each under any schedule. *)
Theorem C85_pooling_cuda_partial :
  forall active pactive bactive warp time1 time2 eps D r1 r2 rows ids pin crows cids pout feats C F,
    device_ok active pactive bactive warp ->
    cuda_workable (scan_limit active warp) eps D r1 rows ids pin crows cids pout ->
    cuda_workable (scan_limit active warp) eps D r2 rows ids pin crows cids pout -> (r1 <= r2)%Q ->
    given feats pin C F -> not_above (length ids) C F F ->
    let largest := fun time r => max_pooling_gpu active warp time eps feats pin pout (Some [r]) false false in
    largest time1 r1 (fun o1 => largest time2 r2 (fun o2 =>
      outputs_below pout false false (length cids) C (fun _ => True) (Ok o1) (Ok o2))).
Proof. exact C85_pooling_cuda_partial_proof. Qed.
Print Assumptions C85_pooling_cuda_partial.

Example C85_pooling_cuda_partial_ex :
  device_ok ex55_active 3 5 32 /\
  cuda_workable (scan_limit ex55_active 32) (1#1000) 2 (1#4) exN_rows exN_ids (seg 2 exN_rows exN_ids 2) exN_rows exN_ids (seg 2 exN_rows exN_ids 2) /\
  cuda_workable (scan_limit ex55_active 32) (1#1000) 2 1 exN_rows exN_ids (seg 2 exN_rows exN_ids 2) exN_rows exN_ids (seg 2 exN_rows exN_ids 2) /\
  given (Feat 2 (inr exN_F)) (seg 2 exN_rows exN_ids 2) 2 exN_F /\ not_above (length exN_ids) 2 exN_F exN_F.
Proof. exact C85_pooling_cuda_partial_ex_proof. Qed.

Example C85_neighbors_cuda_partial_ex :
  device_ok ex55_active 3 5 32 /\
  cuda_workable (scan_limit ex55_active 32) (1#1000) 2 (1#4) exN_rows exN_ids (seg 2 exN_rows exN_ids 2) exN_rows exN_ids (seg 2 exN_rows exN_ids 2) /\
  cuda_workable (scan_limit ex55_active 32) (1#1000) 2 1 exN_rows exN_ids (seg 2 exN_rows exN_ids 2) exN_rows exN_ids (seg 2 exN_rows exN_ids 2) /\
  near 2 1 exN_rows exN_ids exN_rows exN_ids 0 1 /\ ~ near 2 (1#4) exN_rows exN_ids exN_rows exN_ids 0 1.
Proof. exact C85_neighbors_cuda_partial_ex_proof. Qed.
