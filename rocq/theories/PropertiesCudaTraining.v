(** The evaluation on the test set with the CUDA operations (C67)
    Generated by tools/gen_props.py from CudaTrainingProofs.v: statements only. *)
From Coq Require Import String List Arith ZArith NArith QArith Reals Qreals Lia Lra Bool Permutation.
From Verif Require Import GpuBasis GpuPdf Cuda GpuGrid Tensor TensorFacts Spec SpecText TextFacts PointCloud SpecCloud PointCloudFacts QFacts Grid SpecGrid GridFacts
  Neighbors SpecNeighbors NeighborFacts NeighborProofs Neighborhood NeighborhoodFacts NeighborhoodProofs
  Sampling SpecSampling SamplingFacts SamplingProofs Hierarchy SpecHierarchy HierarchyFacts HierarchyProofs LevelFacts CloudProofs Pdf SpecPdf PdfFacts PdfProofs
  RTensor RTensorFacts Kernels KernelProofs Layers SpecLayers LayerFacts LayerLink LayerProofs ConvProofs Blocks SpecBlocks BlockFacts BlockProofs
  Classifier SpecClassifier ClassifierFacts LastLevelFacts ClassifierProofs LargeFacts LargeProofs SpecMatch MatchFacts MatchLevel MatchNet PredictionProofs
  GpuNeighbors GpuSampling CudaLayers SpecCudaLayers CudaLayerProofs CudaNetwork SpecCudaNetwork CudaHierarchyProofs CudaNetFacts CudaNetProofs CudaLargeProofs
  CudaPredictionProofs SampleFacts Generator SpecGenerator GeneratorProofs Training SpecTraining TrainingFacts TrainingProofs CudaTraining.
From Verif Require Import CudaTrainingProofs.
Import ListNotations.
Local Open Scope nat_scope.

(** C67. The small network with the CUDA operations (inference, cell average
    sampling, one feature per point): every model of the test set has scores such
    that the network returns them for that model in every batch, on every device
    and for every schedule, and the validation returns the mean loss and the
    fraction of correct predictions over the whole test set. *)
Theorem C67_small :
  forall eps feature_sizes sample_radii conv_radii name t mode vars ow ob net bn drop dw db samples clouds,
    let L := length sample_radii in
    let u := nth (length feature_sizes - 1) feature_sizes 0 in
    means mode average_names -> sample_radii <> [] -> length conv_radii = L -> Forall (fun r => (0 < r)%Q) conv_radii -> conv_named name t ->
    (forall i, i < L -> cuda_channels (nth i feature_sizes 0)) -> 0 < nth L feature_sizes 0 -> nth 0 feature_sizes 0 = 1 -> 1 <= u ->
    mk_small feature_sizes sample_radii conv_radii name mode vars ow ob = Ok net ->
    (forall k, rowwise (bn k)) -> (forall k, rowwise (drop k)) ->
    test_set eps 1 samples clouds sample_radii -> (forall d, d < 3 -> extent eps samples clouds (last sample_radii 0%Q) d 1) ->
    exists scores : nat -> list R, forall active sactive pactive bactive warp time B ls g loss gdraws,
      device_samples active sactive pactive bactive warp ->
      1 <= B -> (Z.of_nat B * Z.of_nat samples < 2 ^ 31 - 1)%Z -> B * samples <= scan_limit active warp ->
      length ls = length clouds -> length clouds mod B = 0 -> in_use clouds ls B false samples g ->
      (forall i js, length js = B -> Forall (fun j => j < length clouds) js ->
         small_call_gpu active sactive pactive bactive warp (time i) eps net bn drop dw db B
           (Padded [B] samples (concat (map (fun j => firstn samples (nth j clouds [])) js)))
           (Feat 1 (inl (Padded [B] samples (repeat [1%R] (B * samples))))) (repeat samples B)
           (fun out => out = Feat u (inr (map scores js)))) /\
      validation_gpu loss (fun i => small_call_gpu active sactive pactive bactive warp (time i) eps net bn drop dw db B) g samples gdraws
        (fun result => fst result = mean (map (fun j => loss (probabilities (scores j)) (nth j ls 0)) (seq 0 (length clouds))) /\
           fraction (length clouds) (fun j => predicted (scores j) (nth j ls 0)) (snd result)).
Proof. exact C67_small_proof. Qed.
Print Assumptions C67_small.

(** C67. The residual network: the same statement; the last radius is arbitrary. *)
Theorem C67_large :
  forall eps feature_sizes pool_radii conv_radii name t mode iv sv bv net bns bnb bn drop dw db samples clouds,
    let L := length pool_radii in
    let u := nth (length feature_sizes - 1) feature_sizes 0 in
    means mode average_names -> pool_radii <> [] -> length conv_radii = L -> Forall (fun r => (0 < r)%Q) conv_radii -> conv_named name t ->
    (forall i, i < L -> cuda_channels (nth i feature_sizes 0 / 4)) -> 1 <= u ->
    mk_large feature_sizes pool_radii conv_radii name mode iv sv bv = Ok net ->
    (forall i k, rowwise (bns i k)) -> (forall i k, rowwise (bnb i k)) -> (forall k, rowwise (bn k)) -> (forall k, rowwise (drop k)) ->
    test_set eps 1 samples clouds pool_radii ->
    exists scores : nat -> list R, forall active sactive pactive bactive warp time B ls g loss gdraws,
      device_samples active sactive pactive bactive warp ->
      1 <= B -> (Z.of_nat B * Z.of_nat samples < 2 ^ 31 - 1)%Z -> B * samples <= scan_limit active warp ->
      length ls = length clouds -> length clouds mod B = 0 -> in_use clouds ls B false samples g ->
      (forall i js, length js = B -> Forall (fun j => j < length clouds) js ->
         large_call_gpu active sactive pactive bactive warp (time i) eps net bns bnb bn drop dw db B
           (Padded [B] samples (concat (map (fun j => firstn samples (nth j clouds [])) js)))
           (Feat 1 (inl (Padded [B] samples (repeat [1%R] (B * samples))))) (repeat samples B)
           (fun out => out = Feat u (inr (map scores js)))) /\
      validation_gpu loss (fun i => large_call_gpu active sactive pactive bactive warp (time i) eps net bns bnb bn drop dw db B) g samples gdraws
        (fun result => fst result = mean (map (fun j => loss (probabilities (scores j)) (nth j ls 0)) (seq 0 (length clouds))) /\
           fraction (length clouds) (fun j => predicted (scores j) (nth j ls 0)) (snd result)).
Proof. exact C67_large_proof. Qed.
Print Assumptions C67_large.

(** Four models one by one on one device, and all four in one batch on another. *)
Example C67_small_ex :
  forall vars ow ob dw db loss ls, length ls = 4 ->
    exists net, mk_small [1; 8; 8; 8; 3] [1#1; 4#1]%Q [1#1; 4#1]%Q "MCConv" "cell average" vars ow ob = Ok net /\
    exists l a, forall active sactive pactive bactive warp time active2 sactive2 pactive2 bactive2 warp2 time2,
      device_samples active sactive pactive bactive warp -> device_samples active2 sactive2 pactive2 bactive2 warp2 ->
      validation_gpu loss (fun i => small_call_gpu active sactive pactive bactive warp (time i) (1#1000) net (fun _ X => X) (fun _ X => X) dw db 1)
        (new_generator ex62_clouds ls 1 false [2; 0; 3; 1]) 2 (fun _ _ => []) (fun result => fst result = l /\ fraction 4 a (snd result)) /\
      validation_gpu loss (fun i => small_call_gpu active2 sactive2 pactive2 bactive2 warp2 (time2 i) (1#1000) net (fun _ X => X) (fun _ X => X) dw db 4)
        (new_generator ex62_clouds ls 4 false (seq 0 4)) 2 (fun _ _ => []) (fun result => fst result = l /\ fraction 4 a (snd result)).
Proof. exact C67_small_ex_proof. Qed.

Example C67_large_ex :
  forall iv sv bv dw db loss ls, length ls = 4 ->
    exists net, mk_large [4; 8; 8; 3] [1#1; 4#1]%Q [1#1; 4#1]%Q "MCConv" "cell average" iv sv bv = Ok net /\
    exists l a, forall active sactive pactive bactive warp time active2 sactive2 pactive2 bactive2 warp2 time2,
      device_samples active sactive pactive bactive warp -> device_samples active2 sactive2 pactive2 bactive2 warp2 ->
      validation_gpu loss (fun i => large_call_gpu active sactive pactive bactive warp (time i) (1#1000) net (fun _ _ X => X) (fun _ _ X => X) (fun _ X => X) (fun _ X => X) dw db 2)
        (new_generator ex62_clouds ls 2 false [2; 0; 3; 1]) 2 (fun _ _ => []) (fun result => fst result = l /\ fraction 4 a (snd result)) /\
      validation_gpu loss (fun i => large_call_gpu active2 sactive2 pactive2 bactive2 warp2 (time2 i) (1#1000) net (fun _ _ X => X) (fun _ _ X => X) (fun _ X => X) (fun _ X => X) dw db 4)
        (new_generator ex62_clouds ls 4 false (seq 0 4)) 2 (fun _ _ => []) (fun result => fst result = l /\ fraction 4 a (snd result)).
Proof. exact C67_large_ex_proof. Qed.
