(** The residual classification network with the CUDA operations (C65).
    Generated by tools/gen_props.py from CudaLargeProofs.v: statements only. *)
From Coq Require Import String List Arith ZArith NArith QArith Reals Qreals Lia Lra Bool Permutation.
From Verif Require Import GpuBasis GpuPdf Cuda GpuGrid Tensor TensorFacts Spec SpecText TextFacts PointCloud SpecCloud PointCloudFacts QFacts Grid SpecGrid GridFacts
  Neighbors SpecNeighbors NeighborFacts NeighborProofs Neighborhood NeighborhoodFacts NeighborhoodProofs
  Sampling SpecSampling SamplingFacts SamplingProofs Hierarchy SpecHierarchy HierarchyFacts HierarchyProofs LevelFacts CloudProofs Pdf SpecPdf PdfFacts PdfProofs
  RTensor RTensorFacts Kernels KernelProofs Layers SpecLayers LayerFacts LayerLink LayerProofs ConvProofs Blocks SpecBlocks BlockFacts BlockProofs
  Classifier SpecClassifier ClassifierFacts LastLevelFacts ClassifierProofs LargeFacts LargeProofs GpuNeighbors GpuSampling
  CudaLayers SpecCudaLayers CudaLayerProofs CudaNetwork SpecCudaNetwork CudaHierarchyProofs CudaNetFacts CudaNetProofs.
From Verif Require Import CudaLargeProofs.
Import ListNotations.
Local Open Scope nat_scope.

(** C65. The logits of the residual network with the CUDA operations, for every
    device and every interleaving of the threads: those of C59, with a
    hierarchy as in C64 and the convolutions of C55. *)
Theorem C65_large_partial :
  forall active sactive pactive bactive warp time eps B V points sizes feature_sizes pool_radii conv_radii name t mode iv sv bv net
         bns bnb bn drop dw db features,
    let L := length pool_radii in
    let chans := fun i => nth i feature_sizes 0 in
    let u1 := nth (length feature_sizes - 2) feature_sizes 0 in
    let u2 := nth (length feature_sizes - 1) feature_sizes 0 in
    let input := (valid_rows sizes V points, ids_of_sizes sizes) in
    device_samples active sactive pactive bactive warp ->
    cuda_input (scan_limit active warp) eps B V points sizes pool_radii mode -> 0 < L ->
    length conv_radii = L -> Forall (fun r => (0 < r)%Q) conv_radii -> conv_named name t ->
    (forall i, i < L -> cuda_channels (chans i / 4)) ->
    mk_large feature_sizes pool_radii conv_radii name mode iv sv bv = Ok net ->
    (forall i k, keeps_shape (bns i k)) -> (forall i k, keeps_shape (bnb i k)) ->
    (forall k, keeps_shape (bn k)) -> (forall k, keeps_shape (drop k)) ->
    length features = B * V -> Forall (fun row => length row = 1) features ->
    large_call_gpu active sactive pactive bactive warp time eps net bns bnb bn drop dw db B
      (Padded [B] V points) (Feat 1 (inl (Padded [B] V features))) sizes (fun out =>
      exists data, chain (next_level mode eps 3) (map (fun r => repeat r 3) pool_radii) (input :: data) /\
        let conv := fun v cin cout r up lo X => cuda_formula t 1 16 v cin cout r up lo X in
        let strided := fun i p up lo X => block_formula (conv (bv_conv (sv i))) (bns i) (sv i) (chans (i - 1)) (chans i) p (Some p) up lo X in
        let plain := fun i c lo X => block_formula (conv (bv_conv (bv i))) (bnb i) (bv i) (chans i) (chans i) c None lo lo X in
        let first := nth 0 data input in
        let c0 := nth 0 conv_radii 0%Q in
        let start := plain 0 c0 first (conv iv 1 (chans 0) c0 first first (rows_for V (snd first) features)) in
        let encoding := deeper strided plain 1 (tl pool_radii) (tl conv_radii) first (tl data) start in
        let logits := dense_head (fun X => drop 0 (activated (bn 0) X)) (activated (fun X => drop 1 (bn 1 X)))
          dw db B (chans (L - 1)) u1 u2 (averaged B (snd (last data input)) (chans (L - 1)) encoding) in
        matrix B u2 logits /\ out = Feat u2 (inr logits)).
Proof. exact C65_large_partial_proof. Qed.
Print Assumptions C65_large_partial.

(** One cloud and two levels; the second block widens the features from 4 to
    8. *)
Example C65_large_partial_ex :
  forall active sactive pactive bactive warp time, device_samples active sactive pactive bactive warp ->
    cuda_input (scan_limit active warp) (1#1000) 1 3 ex65_points [2] [1#1; 4#1]%Q "poisson disk" /\
    forall iv sv bv dw db f, exists net,
      mk_large [4; 8; 8; 3] [1#1; 4#1]%Q [1#1; 4#1]%Q "MCConv" "poisson disk" iv sv bv = Ok net /\
      large_call_gpu active sactive pactive bactive warp time (1#1000) net (fun _ _ X => X) (fun _ _ X => X) (fun _ X => X) (fun _ X => X) dw db 1
        (Padded [1] 3 ex65_points) (Feat 1 (inl (Padded [1] 3 (table 3 1 f)))) [2] (fun out =>
        exists logits, out = Feat 3 (inr logits) /\ length logits = 1).
Proof. exact C65_large_partial_ex_proof. Qed.
