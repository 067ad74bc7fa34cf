(** Sums of features with the CUDA operations (C83).
    Generated by tools/gen_props.py from LinearCudaProofs.v: statements only. *)
From Coq Require Import String List Arith ZArith NArith QArith Reals Qreals Lia Lra Bool Permutation.
From Verif Require Import GpuBasis GpuPdf Cuda GpuGrid Tensor TensorFacts Spec SpecText TextFacts PointCloud SpecCloud PointCloudFacts QFacts Grid SpecGrid GridFacts
  Neighbors SpecNeighbors NeighborFacts NeighborProofs Neighborhood NeighborhoodFacts NeighborhoodProofs
  Sampling SpecSampling SamplingFacts SamplingProofs Hierarchy SpecHierarchy HierarchyFacts Pdf SpecPdf PdfFacts PdfProofs
  RTensor RTensorFacts Layers SpecLayers LayerFacts LayerLink LayerProofs ConvProofs MoveProofs BlockFacts
  SpecMatch MatchFacts SpecLayerMatch GpuPdfProofs CudaLayers SpecCudaLayers CudaLayerProofs LayerMatchProofs SpecLinear LinearProofs.
From Verif Require Import LinearCudaProofs.
Import ListNotations.
Local Open Scope nat_scope.

(** C83 with the CUDA operations: three calls on a device, each under
    any schedule. *)
Theorem C83_superposition_cuda_partial :
  forall active pactive bactive warp time1 time2 time eps D r rows ids pin crows cids pout cin a b feats1 feats2 feats F1 F2 F,
    device_ok active pactive bactive warp ->
    cuda_workable (scan_limit active warp) eps D r rows ids pin crows cids pout ->
    given feats1 pin cin F1 -> given feats2 pin cin F2 -> given feats pin cin F -> combined (length ids) cin a b F1 F2 F ->
    let sums := fun C o1 o2 o => superposed pout false false (length cids) C a b (fun _ => 0%R) (Ok o1) (Ok o2) (Ok o) in
    (forall cout mlps sizes act f w bs fw layer bandwidth,
       length ids <= scan_limit active warp ->
       mk_mcconv cin cout D mlps sizes act w bs fw = Ok layer -> 0 < cout -> activation act f -> (0 < bandwidth)%R ->
       SpecGpuBasis.supported (last sizes 0 * mlps) cin ->
       let call := fun time x => mcconv_gpu active pactive bactive warp time eps layer x pin pout r None bandwidth false false in
       call time1 feats1 (fun o1 => call time2 feats2 (fun o2 => call time feats (fun o => sums cout o1 o2 o)))) /\
    (forall cout K interpolation wt kernel_points w wo spherical layer influence,
       mk_kpconv cin cout K D false interpolation
         (Some (ttab [K; D] (fun idx => match idx with [k; d] => kernel_points k d | _ => 0%R end))) spherical w wo = Ok layer ->
       0 < cin /\ (cin < 8 \/ cin mod 8 = 0) -> 0 < K <= 64 -> weighting interpolation wt ->
       let call := fun time x => kpconv_gpu active bactive warp time eps layer x pin pout r None influence false false in
       call time1 feats1 (fun o1 _ => call time2 feats2 (fun o2 _ => call time feats (fun o _ => sums cout o1 o2 o)))) /\
    (forall cout hidden act f axis bias w w1 b1 w2 b2 bandwidth,
       length ids <= scan_limit active warp -> SpecGpuBasis.supported hidden cin -> activation act f -> (0 < bandwidth)%R ->
       let call := fun time x => pointconv_gpu active pactive bactive warp time eps (mk_pointconv cin cout D hidden act axis bias w w1 b1 w2 b2)
                                   x pin pout r None bandwidth false false in
       call time1 feats1 (fun o1 => call time2 feats2 (fun o2 => call time feats (fun o => sums cout o1 o2 o)))) /\
    (let call := fun time x => average_pooling_gpu active warp time eps x pin pout (Some [r]) false false in
     call time1 feats1 (fun o1 => call time2 feats2 (fun o2 => call time feats (fun o => sums cin o1 o2 o)))).
Proof. exact C83_superposition_cuda_partial_proof. Qed.
Print Assumptions C83_superposition_cuda_partial.

(** * A concrete case *)
Example C83_superposition_cuda_partial_ex :
  device_ok ex55_active 3 5 32 /\
  cuda_workable (scan_limit ex55_active 32) (1#1000) 2 1 exN_rows exN_ids (seg 2 exN_rows exN_ids 2) exN_rows exN_ids (seg 2 exN_rows exN_ids 2) /\
  length exN_ids <= scan_limit ex55_active 32 /\ SpecGpuBasis.supported (last [3;8] 0 * 2) 2 /\
  given (Feat 2 (inr exN_F)) (seg 2 exN_rows exN_ids 2) 2 exN_F /\
  given (Feat 2 (inr exL_swap)) (seg 2 exN_rows exN_ids 2) 2 exL_swap /\
  given (Feat 2 (inr exL_F)) (seg 2 exN_rows exN_ids 2) 2 exL_F /\
  combined (length exN_ids) 2 2 (-1) exN_F exL_swap exL_F.
Proof. exact C83_superposition_cuda_partial_ex_proof. Qed.
