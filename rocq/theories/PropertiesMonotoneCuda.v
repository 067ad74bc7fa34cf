(** Comparisons of features under pooling with the CUDA operations (C84).
    Generated by tools/gen_props.py from MonotoneCudaProofs.v: statements only. *)
From Coq Require Import String List Arith ZArith NArith QArith Reals Qreals Lia Lra Bool Permutation.
From Verif Require Import GpuBasis GpuPdf Cuda GpuGrid Tensor TensorFacts Spec SpecText TextFacts PointCloud SpecCloud PointCloudFacts QFacts Grid SpecGrid GridFacts
  Neighbors SpecNeighbors NeighborFacts NeighborProofs Neighborhood NeighborhoodFacts NeighborhoodProofs
  Sampling SpecSampling SamplingFacts SamplingProofs Hierarchy SpecHierarchy HierarchyFacts Pdf SpecPdf PdfFacts PdfProofs
  RTensor RTensorFacts Layers SpecLayers LayerFacts LayerLink LayerProofs ConvProofs MoveProofs BlockFacts
  CudaLayers SpecCudaLayers CudaLayerProofs LinearProofs SpecMonotone MonotoneProofs.
From Verif Require Import MonotoneCudaProofs.
Import ListNotations.
Local Open Scope nat_scope.

(** C84, local pooling with the CUDA operations: two calls, each under any
    schedule. *)
Theorem C84_local_cuda_partial :
  forall active pactive bactive warp time1 time2 eps D r rows ids pin crows cids pout radii feats1 feats2 C F1 F2,
    device_ok active pactive bactive warp ->
    cuda_workable (scan_limit active warp) eps D r rows ids pin crows cids pout -> radii = [r] \/ radii = repeat r D ->
    given feats1 pin C F1 -> given feats2 pin C F2 -> not_above (length ids) C F1 F2 ->
    let largest := fun time x => max_pooling_gpu active warp time eps x pin pout (Some radii) false false in
    let average := fun time x => average_pooling_gpu active warp time eps x pin pout (Some radii) false false in
    let below := fun ok o1 o2 => outputs_below pout false false (length cids) C ok (Ok o1) (Ok o2) in
    largest time1 feats1 (fun o1 => largest time2 feats2 (fun o2 => below (fun _ => True) o1 o2)) /\
    average time1 feats1 (fun o1 => average time2 feats2 (fun o2 => below (fun _ => True) o1 o2)) /\
    average time1 feats1 (fun o1 => largest time2 feats1 (fun o2 => below (fun i => near_points D r rows ids crows cids i <> []) o1 o2)).
Proof. exact C84_local_cuda_partial_proof. Qed.
Print Assumptions C84_local_cuda_partial.

(** * A concrete case *)
Example C84_local_cuda_partial_ex :
  device_ok ex55_active 3 5 32 /\
  cuda_workable (scan_limit ex55_active 32) (1#1000) 2 1 exN_rows exN_ids (seg 2 exN_rows exN_ids 2) exN_rows exN_ids (seg 2 exN_rows exN_ids 2) /\
  given (Feat 2 (inr exN_F)) (seg 2 exN_rows exN_ids 2) 2 exN_F /\ given (Feat 2 (inr exP_F)) (seg 2 exN_rows exN_ids 2) 2 exP_F /\
  not_above (length exN_ids) 2 exN_F exP_F.
Proof. exact C84_local_cuda_partial_ex_proof. Qed.
