(** The agreement of the predictions with the CUDA operations (C66)
    Generated by tools/gen_props.py from CudaPredictionProofs.v: statements only. *)
From Coq Require Import String List Arith ZArith NArith QArith Reals Qreals Lia Lra Bool Permutation.
From Verif Require Import GpuBasis GpuPdf Cuda GpuGrid Tensor TensorFacts Spec SpecText TextFacts PointCloud SpecCloud PointCloudFacts QFacts Grid SpecGrid GridFacts
  Neighbors SpecNeighbors NeighborFacts NeighborProofs Neighborhood NeighborhoodFacts NeighborhoodProofs
  Sampling SpecSampling SamplingFacts SamplingProofs Hierarchy SpecHierarchy HierarchyFacts HierarchyProofs LevelFacts CloudProofs Pdf SpecPdf PdfFacts PdfProofs
  RTensor RTensorFacts Kernels KernelProofs Layers SpecLayers LayerFacts LayerLink LayerProofs ConvProofs Blocks SpecBlocks BlockFacts BlockProofs
  Classifier SpecClassifier ClassifierFacts LastLevelFacts ClassifierProofs LargeFacts LargeProofs SpecMatch MatchFacts MatchLevel MatchNet PredictionProofs
  GpuNeighbors GpuSampling CudaLayers SpecCudaLayers CudaLayerProofs CudaNetwork SpecCudaNetwork CudaHierarchyProofs CudaNetFacts CudaNetProofs CudaLargeProofs.
From Verif Require Import CudaPredictionProofs.
Import ListNotations.
Local Open Scope nat_scope.

(** C66. Two calls of the network of modelnet40_small.py with the CUDA
    operations outside of training, with cell average sampling, on two devices
    and with any interleavings: the logits of a cloud that both batches contain
    agree, whatever the other clouds, the padding, the order of the points and a
    translation of the cloud. *)
Theorem C66_small :
  forall active sactive pactive bactive warp time active2 sactive2 pactive2 bactive2 warp2 time2 eps feature_sizes sample_radii conv_radii name t mode vars ow ob net bn drop dw db
    B V points sizes features e B2 V2 points2 sizes2 features2 e2 s tr,
    let L := length sample_radii in
    let chans := fun i => nth i feature_sizes 0 in
    let u2 := nth (length feature_sizes - 1) feature_sizes 0 in
    let input := (valid_rows sizes V points, ids_of_sizes sizes) in
    let input2 := (valid_rows sizes2 V2 points2, ids_of_sizes sizes2) in
    device_samples active sactive pactive bactive warp -> device_samples active2 sactive2 pactive2 bactive2 warp2 ->
    means mode average_names -> 0 < L -> conv_named name t ->
    (forall i, i < L -> cuda_channels (chans i)) -> 0 < chans L ->
    mk_small feature_sizes sample_radii conv_radii name mode vars ow ob = Ok net ->
    (forall k, rowwise (bn k)) -> (forall k, rowwise (drop k)) ->
    length conv_radii = L -> Forall (fun r => (0 < r)%Q) conv_radii ->
    cuda_input (scan_limit active warp) eps B V points sizes sample_radii mode ->
    length features = B * V -> Forall (fun row => length row = chans 0) features ->
    cuda_input (scan_limit active2 warp2) eps B2 V2 points2 sizes2 sample_radii mode ->
    length features2 = B2 * V2 -> Forall (fun row => length row = chans 0) features2 ->
    (forall r, nth_error sample_radii (L - 1) = Some r -> one_sample mode eps r input /\ one_sample mode eps r input2) ->
    e < B -> e2 < B2 -> same_cloud 3 e V sizes points e2 V2 sizes2 points2 s tr ->
    same_rows e V (nth e sizes 0) features e2 V2 features2 s ->
    small_call_gpu active sactive pactive bactive warp time eps net bn drop dw db B
      (Padded [B] V points) (Feat (chans 0) (inl (Padded [B] V features))) sizes (fun out =>
      small_call_gpu active2 sactive2 pactive2 bactive2 warp2 time2 eps net bn drop dw db B2
        (Padded [B2] V2 points2) (Feat (chans 0) (inl (Padded [B2] V2 features2))) sizes2 (fun out2 =>
        exists logits logits2, out = Feat u2 (inr logits) /\ out2 = Feat u2 (inr logits2) /\
          matrix B u2 logits /\ matrix B2 u2 logits2 /\ nth e logits [] = nth e2 logits2 [])).
Proof. exact C66_small_proof. Qed.
Print Assumptions C66_small.

(** The same for the residual network of modelnet40.py. *)
Theorem C66_large :
  forall active sactive pactive bactive warp time active2 sactive2 pactive2 bactive2 warp2 time2 eps feature_sizes pool_radii conv_radii name t mode iv sv bv net bns bnb bn drop dw db
    B V points sizes features e B2 V2 points2 sizes2 features2 e2 s tr x,
    let L := length pool_radii in
    let chans := fun i => nth i feature_sizes 0 in
    let u2 := nth (length feature_sizes - 1) feature_sizes 0 in
    let input := (valid_rows sizes V points, ids_of_sizes sizes) in
    let input2 := (valid_rows sizes2 V2 points2, ids_of_sizes sizes2) in
    device_samples active sactive pactive bactive warp -> device_samples active2 sactive2 pactive2 bactive2 warp2 ->
    means mode average_names -> 0 < L -> conv_named name t ->
    (forall i, i < L -> cuda_channels (chans i / 4)) ->
    mk_large feature_sizes pool_radii conv_radii name mode iv sv bv = Ok net ->
    (forall i k, rowwise (bns i k)) -> (forall i k, rowwise (bnb i k)) ->
    (forall k, rowwise (bn k)) -> (forall k, rowwise (drop k)) ->
    length conv_radii = L -> Forall (fun r => (0 < r)%Q) conv_radii ->
    cuda_input (scan_limit active warp) eps B V points sizes pool_radii mode ->
    length features = B * V -> Forall (fun row => length row = 1) features ->
    cuda_input (scan_limit active2 warp2) eps B2 V2 points2 sizes2 pool_radii mode ->
    length features2 = B2 * V2 -> Forall (fun row => length row = 1) features2 ->
    e < B -> e2 < B2 -> same_cloud 3 e V sizes points e2 V2 sizes2 points2 s tr ->
    (forall k, k < nth e sizes 0 -> nth (e * V + k) features [] = [x] /\ nth (e2 * V2 + k) features2 [] = [x]) ->
    large_call_gpu active sactive pactive bactive warp time eps net bns bnb bn drop dw db B
      (Padded [B] V points) (Feat 1 (inl (Padded [B] V features))) sizes (fun out =>
      large_call_gpu active2 sactive2 pactive2 bactive2 warp2 time2 eps net bns bnb bn drop dw db B2
        (Padded [B2] V2 points2) (Feat 1 (inl (Padded [B2] V2 features2))) sizes2 (fun out2 =>
        exists logits logits2, out = Feat u2 (inr logits) /\ out2 = Feat u2 (inr logits2) /\
          matrix B u2 logits /\ matrix B2 u2 logits2 /\ nth e logits [] = nth e2 logits2 [])).
Proof. exact C66_large_proof. Qed.
Print Assumptions C66_large.

(** C66, a call with the CUDA operations and one with the pure TensorFlow
    fallback: the logits of the small network agree for PointConv and KPConv.
    Missing: MCConv, whose CUDA densities are larger by a constant (C55). *)
Theorem C66_small_fallback_partial :
  forall active sactive pactive bactive warp time eps feature_sizes sample_radii conv_radii name t mode vars ow ob net bn drop dw db
    B V points sizes features e B2 V2 points2 sizes2 features2 fuel2 draws2 e2 s tr,
    let L := length sample_radii in
    let chans := fun i => nth i feature_sizes 0 in
    let u2 := nth (length feature_sizes - 1) feature_sizes 0 in
    let input := (valid_rows sizes V points, ids_of_sizes sizes) in
    let input2 := (valid_rows sizes2 V2 points2, ids_of_sizes sizes2) in
    device_samples active sactive pactive bactive warp ->
    means mode average_names -> 0 < L -> conv_named name t -> t <> TMC -> (t = TPT -> 2 <= B2) ->
    (forall i, i < L -> cuda_channels (chans i)) -> Forall (fun c => 0 < c) feature_sizes ->
    mk_small feature_sizes sample_radii conv_radii name mode vars ow ob = Ok net ->
    (forall k, rowwise (bn k)) -> (forall k, rowwise (drop k)) ->
    cuda_input (scan_limit active warp) eps B V points sizes sample_radii mode ->
    length features = B * V -> Forall (fun row => length row = chans 0) features ->
    input_batch eps B2 V2 points2 sizes2 sample_radii mode fuel2 -> search_radii eps B2 input2 L conv_radii ->
    length features2 = B2 * V2 -> Forall (fun row => length row = chans 0) features2 ->
    (forall r, nth_error sample_radii (L - 1) = Some r -> one_sample mode eps r input /\ one_sample mode eps r input2) ->
    e < B -> e2 < B2 -> same_cloud 3 e V sizes points e2 V2 sizes2 points2 s tr ->
    same_rows e V (nth e sizes 0) features e2 V2 features2 s ->
    small_call_gpu active sactive pactive bactive warp time eps net bn drop dw db B
      (Padded [B] V points) (Feat (chans 0) (inl (Padded [B] V features))) sizes (fun out =>
      exists logits logits2, out = Feat u2 (inr logits) /\
        small_call GPU eps (find_neighbors_tf GPU) (compute_pdf_tf GPU) net bn drop dw db fuel2 draws2 B2
          (Padded [B2] V2 points2) (Feat (chans 0) (inl (Padded [B2] V2 features2))) sizes2 = Some (Ok (Feat u2 (inr logits2))) /\
        matrix B u2 logits /\ matrix B2 u2 logits2 /\ nth e logits [] = nth e2 logits2 []).
Proof. exact C66_small_fallback_partial_proof. Qed.
Print Assumptions C66_small_fallback_partial.

(** The same for the residual network. *)
Theorem C66_large_fallback_partial :
  forall active sactive pactive bactive warp time eps feature_sizes pool_radii conv_radii name t mode iv sv bv net bns bnb bn drop dw db
    B V points sizes features e B2 V2 points2 sizes2 features2 fuel2 draws2 e2 s tr x,
    let L := length pool_radii in
    let chans := fun i => nth i feature_sizes 0 in
    let u2 := nth (length feature_sizes - 1) feature_sizes 0 in
    let input := (valid_rows sizes V points, ids_of_sizes sizes) in
    let input2 := (valid_rows sizes2 V2 points2, ids_of_sizes sizes2) in
    device_samples active sactive pactive bactive warp ->
    means mode average_names -> 0 < L -> conv_named name t -> t <> TMC -> (t = TPT -> 2 <= B2) ->
    (forall i, i < L -> cuda_channels (chans i / 4)) ->
    mk_large feature_sizes pool_radii conv_radii name mode iv sv bv = Ok net ->
    (forall i k, rowwise (bns i k)) -> (forall i k, rowwise (bnb i k)) ->
    (forall k, rowwise (bn k)) -> (forall k, rowwise (drop k)) ->
    cuda_input (scan_limit active warp) eps B V points sizes pool_radii mode ->
    length features = B * V -> Forall (fun row => length row = 1) features ->
    input_batch eps B2 V2 points2 sizes2 pool_radii mode fuel2 -> search_radii eps B2 input2 L conv_radii ->
    length features2 = B2 * V2 -> Forall (fun row => length row = 1) features2 ->
    e < B -> e2 < B2 -> same_cloud 3 e V sizes points e2 V2 sizes2 points2 s tr ->
    (forall k, k < nth e sizes 0 -> nth (e * V + k) features [] = [x] /\ nth (e2 * V2 + k) features2 [] = [x]) ->
    large_call_gpu active sactive pactive bactive warp time eps net bns bnb bn drop dw db B
      (Padded [B] V points) (Feat 1 (inl (Padded [B] V features))) sizes (fun out =>
      exists logits logits2, out = Feat u2 (inr logits) /\
        large_call GPU eps (find_neighbors_tf GPU) (compute_pdf_tf GPU) net bns bnb bn drop dw db fuel2 draws2 B2
          (Padded [B2] V2 points2) (Feat 1 (inl (Padded [B2] V2 features2))) sizes2 = Some (Ok (Feat u2 (inr logits2))) /\
        matrix B u2 logits /\ matrix B2 u2 logits2 /\ nth e logits [] = nth e2 logits2 []).
Proof. exact C66_large_fallback_partial_proof. Qed.
Print Assumptions C66_large_fallback_partial.

Example C66_small_ex :
  same_cloud 3 0 3 [2] ex65_points 1 2 ex60_sizes ex60_points [1; 0] ex60_move /\
  forall active sactive pactive bactive warp time active2 sactive2 pactive2 bactive2 warp2 time2, device_samples active sactive pactive bactive warp -> device_samples active2 sactive2 pactive2 bactive2 warp2 ->
    forall vars ow ob dw db (f : nat -> R), exists net,
      mk_small [1; 8; 8; 8; 3] [1#1; 4#1]%Q [1#1; 4#1]%Q "MCConv" "cell average" vars ow ob = Ok net /\
      small_call_gpu active sactive pactive bactive warp time (1#1000) net (fun _ X => X) (fun _ X => X) dw db 1
        (Padded [1] 3 ex65_points) (Feat 1 (inl (Padded [1] 3 [[f 0]; [f 1]; [0%R]]))) [2] (fun out =>
        small_call_gpu active2 sactive2 pactive2 bactive2 warp2 time2 (1#1000) net (fun _ X => X) (fun _ X => X) dw db 2
          (Padded [2] 2 ex60_points) (Feat 1 (inl (Padded [2] 2 [[f 3]; [f 4]; [f 1]; [f 0]]))) ex60_sizes (fun out2 =>
          exists logits logits2, out = Feat 3 (inr logits) /\ out2 = Feat 3 (inr logits2) /\
            matrix 1 3 logits /\ matrix 2 3 logits2 /\ nth 0 logits [] = nth 1 logits2 [])).
Proof. exact C66_small_ex_proof. Qed.

Example C66_large_ex :
  same_cloud 3 0 3 [2] ex65_points 1 2 ex60_sizes ex60_points [1; 0] ex60_move /\
  forall active sactive pactive bactive warp time active2 sactive2 pactive2 bactive2 warp2 time2, device_samples active sactive pactive bactive warp -> device_samples active2 sactive2 pactive2 bactive2 warp2 ->
    forall iv sv bv dw db (f : nat -> R), exists net,
      mk_large [4; 8; 8; 3] [1#1; 4#1]%Q [1#1; 4#1]%Q "MCConv" "cell average" iv sv bv = Ok net /\
      large_call_gpu active sactive pactive bactive warp time (1#1000) net (fun _ _ X => X) (fun _ _ X => X) (fun _ X => X) (fun _ X => X) dw db 1
        (Padded [1] 3 ex65_points) (Feat 1 (inl (Padded [1] 3 [[1%R]; [1%R]; [f 0]]))) [2] (fun out =>
        large_call_gpu active2 sactive2 pactive2 bactive2 warp2 time2 (1#1000) net (fun _ _ X => X) (fun _ _ X => X) (fun _ X => X) (fun _ X => X) dw db 2
          (Padded [2] 2 ex60_points) (Feat 1 (inl (Padded [2] 2 [[f 3]; [f 4]; [1%R]; [1%R]]))) ex60_sizes (fun out2 =>
          exists logits logits2, out = Feat 3 (inr logits) /\ out2 = Feat 3 (inr logits2) /\
            matrix 1 3 logits /\ matrix 2 3 logits2 /\ nth 0 logits [] = nth 1 logits2 [])).
Proof. exact C66_large_ex_proof. Qed.

Example C66_small_fallback_partial_ex :
  same_cloud 3 0 3 [2] ex65_points 1 2 ex60_sizes ex60_points [1; 0] ex60_move /\
  forall active sactive pactive bactive warp time, device_samples active sactive pactive bactive warp ->
    forall vars ow ob dw db draws2 (f : nat -> R), exists net,
      mk_small [1; 8; 8; 8; 3] [1#1; 4#1]%Q [1#1; 4#1]%Q "PointConv" "cell average" vars ow ob = Ok net /\
      small_call_gpu active sactive pactive bactive warp time (1#1000) net (fun _ X => X) (fun _ X => X) dw db 1
        (Padded [1] 3 ex65_points) (Feat 1 (inl (Padded [1] 3 [[f 0]; [f 1]; [0%R]]))) [2] (fun out =>
        exists logits logits2, out = Feat 3 (inr logits) /\
          small_call GPU (1#1000) (find_neighbors_tf GPU) (compute_pdf_tf GPU) net (fun _ X => X) (fun _ X => X) dw db 3 draws2 2
            (Padded [2] 2 ex60_points) (Feat 1 (inl (Padded [2] 2 [[f 3]; [f 4]; [f 1]; [f 0]]))) ex60_sizes = Some (Ok (Feat 3 (inr logits2))) /\
          matrix 1 3 logits /\ matrix 2 3 logits2 /\ nth 0 logits [] = nth 1 logits2 []).
Proof. exact C66_small_fallback_partial_ex_proof. Qed.

Example C66_large_fallback_partial_ex :
  same_cloud 3 0 3 [2] ex65_points 1 2 ex60_sizes ex60_points [1; 0] ex60_move /\
  forall active sactive pactive bactive warp time, device_samples active sactive pactive bactive warp ->
    forall iv sv bv dw db draws2 (f : nat -> R), exists net,
      mk_large [4; 8; 8; 3] [1#1; 4#1]%Q [1#1; 4#1]%Q "PointConv" "cell average" iv sv bv = Ok net /\
      large_call_gpu active sactive pactive bactive warp time (1#1000) net (fun _ _ X => X) (fun _ _ X => X) (fun _ X => X) (fun _ X => X) dw db 1
        (Padded [1] 3 ex65_points) (Feat 1 (inl (Padded [1] 3 [[1%R]; [1%R]; [f 0]]))) [2] (fun out =>
        exists logits logits2, out = Feat 3 (inr logits) /\
          large_call GPU (1#1000) (find_neighbors_tf GPU) (compute_pdf_tf GPU) net (fun _ _ X => X) (fun _ _ X => X) (fun _ X => X) (fun _ X => X) dw db 3 draws2 2
            (Padded [2] 2 ex60_points) (Feat 1 (inl (Padded [2] 2 [[f 3]; [f 4]; [1%R]; [1%R]]))) ex60_sizes = Some (Ok (Feat 3 (inr logits2))) /\
          matrix 1 3 logits /\ matrix 2 3 logits2 /\ nth 0 logits [] = nth 1 logits2 []).
Proof. exact C66_large_fallback_partial_ex_proof. Qed.
