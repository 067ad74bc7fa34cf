(** The small classification network with the CUDA operations (C65).
    Generated by tools/gen_props.py from CudaNetProofs.v: statements only. *)
From Coq Require Import String List Arith ZArith NArith QArith Reals Qreals Lia Lra Bool Permutation.
From Verif Require Import GpuBasis GpuPdf Cuda GpuGrid Tensor TensorFacts Spec SpecText TextFacts PointCloud SpecCloud PointCloudFacts QFacts Grid SpecGrid GridFacts
  Neighbors SpecNeighbors NeighborFacts NeighborProofs Neighborhood NeighborhoodFacts NeighborhoodProofs
  Sampling SpecSampling SamplingFacts SamplingProofs Hierarchy SpecHierarchy HierarchyFacts HierarchyProofs LevelFacts CloudProofs Pdf SpecPdf PdfFacts PdfProofs
  RTensor RTensorFacts Kernels KernelProofs Layers SpecLayers LayerFacts LayerLink LayerProofs ConvProofs Blocks SpecBlocks BlockFacts BlockProofs
  Classifier SpecClassifier ClassifierFacts LastLevelFacts ClassifierProofs GpuNeighbors GpuSampling
  CudaLayers SpecCudaLayers CudaNetwork SpecCudaNetwork CudaHierarchyProofs CudaNetFacts.
From Verif Require Import CudaNetProofs.
Import ListNotations.
Local Open Scope nat_scope.

(** C65. The logits of the small network with the CUDA operations, for every
    device and every interleaving of the threads: those of C58, with a
    hierarchy as in C64 and the convolutions of C55. A batch of one cloud is
    allowed and there is no condition on the number of cells or on the order of
    the radii. *)
Theorem C65_small_partial :
  forall active sactive pactive bactive warp time eps B V points sizes feature_sizes sample_radii conv_radii name t mode vars ow ob net bn drop dw db features,
    let L := length sample_radii in
    let chans := fun i => nth i feature_sizes 0 in
    let u1 := nth (length feature_sizes - 2) feature_sizes 0 in
    let u2 := nth (length feature_sizes - 1) feature_sizes 0 in
    let input := (valid_rows sizes V points, ids_of_sizes sizes) in
    device_samples active sactive pactive bactive warp ->
    cuda_input (scan_limit active warp) eps B V points sizes sample_radii mode -> 0 < L ->
    length conv_radii = L -> Forall (fun r => (0 < r)%Q) conv_radii -> conv_named name t ->
    (forall i, i < L -> cuda_channels (chans i)) -> 0 < chans L ->
    mk_small feature_sizes sample_radii conv_radii name mode vars ow ob = Ok net ->
    (forall k, keeps_shape (bn k)) -> (forall k, keeps_shape (drop k)) ->
    length features = B * V -> Forall (fun row => length row = chans 0) features ->
    small_call_gpu active sactive pactive bactive warp time eps net bn drop dw db B
      (Padded [B] V points) (Feat (chans 0) (inl (Padded [B] V features))) sizes (fun out =>
      exists data, chain (next_level mode eps 3) (map (fun r => repeat r 3) sample_radii) (input :: data) /\
        let bottom := snd (last data input) in
        let conv := fun i r up lo X => cuda_formula t 4 8 (vars i) (chans i) (chans (S i)) r up lo X in
        let features_below := encoded conv (small_post bn chans ow ob) 0 conv_radii input data (rows_for V (snd input) features) in
        let encoding := by_element B bottom features_below in
        let logits := dense_head (fun X => drop 0 (activated (bn (2 * L - 2)) X)) (fun X => drop 1 (activated (bn (2 * L - 1)) X))
          dw db (length bottom) (chans L) u1 u2 encoding in
        matrix (length bottom) u2 logits /\ all_nonempty B bottom /\
        (forall r, nth_error sample_radii (L - 1) = Some r -> one_sample mode eps r input ->
           length bottom = B /\
           forall b, b < B -> exists k, k < B /\ nth k bottom 0 = b /\ nth b encoding [] = nth k features_below []) /\
        out = Feat u2 (inr logits)).
Proof. exact C65_small_partial_proof. Qed.
Print Assumptions C65_small_partial.

(** One row of logits, for every device and every schedule. *)
Example C65_small_partial_ex :
  forall active sactive pactive bactive warp time, device_samples active sactive pactive bactive warp ->
    cuda_input (scan_limit active warp) (1#1000) 1 3 ex65_points [2] [1#1; 4#1]%Q "poisson disk" /\
    one_sample "poisson disk" (1#1000) (4#1) (valid_rows [2] 3 ex65_points, ids_of_sizes [2]) /\
    forall vars ow ob dw db f, exists net,
      mk_small [1; 8; 8; 8; 3] [1#1; 4#1]%Q [1#1; 4#1]%Q "MCConv" "poisson disk" vars ow ob = Ok net /\
      small_call_gpu active sactive pactive bactive warp time (1#1000) net (fun _ X => X) (fun _ X => X) dw db 1
        (Padded [1] 3 ex65_points) (Feat 1 (inl (Padded [1] 3 (table 3 1 f)))) [2] (fun out =>
        exists logits, out = Feat 3 (inr logits) /\ length logits = 1).
Proof. exact C65_small_partial_ex_proof. Qed.
