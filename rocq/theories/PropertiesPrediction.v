(** The prediction for a cloud (C60).
    Generated by tools/gen_props.py from PredictionProofs.v: statements only. *)
From Coq Require Import String List Arith ZArith QArith Reals Qreals Lia Bool Permutation.
From Verif Require Import Tensor TensorFacts Spec SpecText TextFacts PointCloud SpecCloud PointCloudFacts QFacts Grid SpecGrid GridFacts
  Neighbors SpecNeighbors Sampling SpecSampling SamplingFacts SamplingProofs Hierarchy SpecHierarchy HierarchyFacts HierarchyProofs Pdf SpecPdf
  RTensor RTensorFacts Kernels Layers SpecLayers LayerFacts LayerLink LayerProofs
  Blocks SpecBlocks BlockFacts BlockProofs BatchProofs Classifier SpecClassifier ClassifierFacts LastLevelFacts ClassifierProofs LargeFacts LargeProofs
  SpecMatch MatchFacts MatchLevel MatchNet.
From Verif Require Import PredictionProofs.
Import ListNotations.
Local Open Scope nat_scope.

(** C60. The network of modelnet40_small.py outside of training, cell average
    sampling: if cloud [e2] of one call is cloud [e] of another call with the
    points (and their features) in another order and translated, then both get
    the same logits, whatever the other clouds of the two batches and the padded
    lengths are. *)
Theorem C60_small :
  forall eps feature_sizes sample_radii conv_radii name t mode vars ow ob net bn drop dw db
    B V points sizes features fuel draws e B2 V2 points2 sizes2 features2 fuel2 draws2 e2 s tr,
    let L := length sample_radii in
    let chans := fun i => nth i feature_sizes 0 in
    let u2 := nth (length feature_sizes - 1) feature_sizes 0 in
    let input := (valid_rows sizes V points, ids_of_sizes sizes) in
    let input2 := (valid_rows sizes2 V2 points2, ids_of_sizes sizes2) in
    means mode average_names -> 0 < L -> conv_named name t -> (t = TPT -> 2 <= B /\ 2 <= B2) -> Forall (fun c => 0 < c) feature_sizes ->
    mk_small feature_sizes sample_radii conv_radii name mode vars ow ob = Ok net ->
    (forall k, rowwise (bn k)) -> (forall k, rowwise (drop k)) ->
    input_batch eps B V points sizes sample_radii mode fuel -> search_radii eps B input L conv_radii ->
    length features = B * V -> Forall (fun row => length row = chans 0) features ->
    input_batch eps B2 V2 points2 sizes2 sample_radii mode fuel2 -> search_radii eps B2 input2 L conv_radii ->
    length features2 = B2 * V2 -> Forall (fun row => length row = chans 0) features2 ->
    (forall r, nth_error sample_radii (L - 1) = Some r -> one_sample mode eps r input /\ one_sample mode eps r input2) ->
    e < B -> e2 < B2 -> same_cloud 3 e V sizes points e2 V2 sizes2 points2 s tr ->
    same_rows e V (nth e sizes 0) features e2 V2 features2 s ->
    exists logits logits2,
      small_call GPU eps (find_neighbors_tf GPU) (compute_pdf_tf GPU) net bn drop dw db fuel draws B
        (Padded [B] V points) (Feat (chans 0) (inl (Padded [B] V features))) sizes = Some (Ok (Feat u2 (inr logits))) /\
      small_call GPU eps (find_neighbors_tf GPU) (compute_pdf_tf GPU) net bn drop dw db fuel2 draws2 B2
        (Padded [B2] V2 points2) (Feat (chans 0) (inl (Padded [B2] V2 features2))) sizes2 = Some (Ok (Feat u2 (inr logits2))) /\
      matrix B u2 logits /\ matrix B2 u2 logits2 /\ nth e logits [] = nth e2 logits2 [].
Proof. exact C60_small_proof. Qed.
Print Assumptions C60_small.

(** C60. The network of modelnet40.py outside of training, cell average sampling
    and constant features on the two clouds (the script passes ones): the same
    statement. *)
Theorem C60_large :
  forall eps feature_sizes pool_radii conv_radii name t mode iv sv bv net bns bnb bn drop dw db
    B V points sizes features fuel draws e B2 V2 points2 sizes2 features2 fuel2 draws2 e2 s tr x,
    let L := length pool_radii in
    let chans := fun i => nth i feature_sizes 0 in
    let u2 := nth (length feature_sizes - 1) feature_sizes 0 in
    let input := (valid_rows sizes V points, ids_of_sizes sizes) in
    let input2 := (valid_rows sizes2 V2 points2, ids_of_sizes sizes2) in
    means mode average_names -> 0 < L -> conv_named name t -> (t = TPT -> 2 <= B /\ 2 <= B2) -> (forall i, i < L -> 4 <= chans i) ->
    mk_large feature_sizes pool_radii conv_radii name mode iv sv bv = Ok net ->
    (forall i k, rowwise (bns i k)) -> (forall i k, rowwise (bnb i k)) -> (forall k, rowwise (bn k)) -> (forall k, rowwise (drop k)) ->
    input_batch eps B V points sizes pool_radii mode fuel -> search_radii eps B input L conv_radii ->
    length features = B * V -> Forall (fun row => length row = 1) features ->
    input_batch eps B2 V2 points2 sizes2 pool_radii mode fuel2 -> search_radii eps B2 input2 L conv_radii ->
    length features2 = B2 * V2 -> Forall (fun row => length row = 1) features2 ->
    e < B -> e2 < B2 -> same_cloud 3 e V sizes points e2 V2 sizes2 points2 s tr ->
    (forall k, k < nth e sizes 0 -> nth (e * V + k) features [] = [x] /\ nth (e2 * V2 + k) features2 [] = [x]) ->
    exists logits logits2,
      large_call GPU eps (find_neighbors_tf GPU) (compute_pdf_tf GPU) net bns bnb bn drop dw db fuel draws B
        (Padded [B] V points) (Feat 1 (inl (Padded [B] V features))) sizes = Some (Ok (Feat u2 (inr logits))) /\
      large_call GPU eps (find_neighbors_tf GPU) (compute_pdf_tf GPU) net bns bnb bn drop dw db fuel2 draws2 B2
        (Padded [B2] V2 points2) (Feat 1 (inl (Padded [B2] V2 features2))) sizes2 = Some (Ok (Feat u2 (inr logits2))) /\
      matrix B u2 logits /\ matrix B2 u2 logits2 /\ nth e logits [] = nth e2 logits2 [].
Proof. exact C60_large_proof. Qed.
Print Assumptions C60_large.

Example C60_small_ex :
  same_cloud 3 0 3 ex58_sizes ex58_points 1 2 ex60_sizes ex60_points [1; 0] ex60_move /\
  forall vars ow ob dw db draws draws2 f g, exists net logits logits2,
    mk_small [1; 8; 8; 8; 3] [1#1; 4#1]%Q [1#1; 4#1]%Q "MCConv" "cell average" vars ow ob = Ok net /\
    small_call GPU (1#1000) (find_neighbors_tf GPU) (compute_pdf_tf GPU) net (fun _ X => X) (fun _ X => X) dw db 3 draws 2
      (Padded [2] 3 ex58_points) (Feat 1 (inl (Padded [2] 3 [[f 0]; [f 1]; [0%R]; [g 0]; [g 1]; [g 2]]))) ex58_sizes = Some (Ok (Feat 3 (inr logits))) /\
    small_call GPU (1#1000) (find_neighbors_tf GPU) (compute_pdf_tf GPU) net (fun _ X => X) (fun _ X => X) dw db 3 draws2 2
      (Padded [2] 2 ex60_points) (Feat 1 (inl (Padded [2] 2 [[g 3]; [g 4]; [f 1]; [f 0]]))) ex60_sizes = Some (Ok (Feat 3 (inr logits2))) /\
    length logits = 2 /\ nth 0 logits [] = nth 1 logits2 [].
Proof. exact C60_small_ex_proof. Qed.

Example C60_large_ex :
  same_cloud 3 0 3 ex58_sizes ex58_points 1 2 ex60_sizes ex60_points [1; 0] ex60_move /\
  forall iv sv bv dw db draws draws2 g, exists net logits logits2,
    mk_large [4; 8; 8; 3] [1#1; 4#1]%Q [1#1; 4#1]%Q "MCConv" "cell average" iv sv bv = Ok net /\
    large_call GPU (1#1000) (find_neighbors_tf GPU) (compute_pdf_tf GPU) net (fun _ _ X => X) (fun _ _ X => X) (fun _ X => X) (fun _ X => X) dw db 3 draws 2
      (Padded [2] 3 ex58_points) (Feat 1 (inl (Padded [2] 3 [[1%R]; [1%R]; [0%R]; [g 0]; [g 1]; [g 2]]))) ex58_sizes = Some (Ok (Feat 3 (inr logits))) /\
    large_call GPU (1#1000) (find_neighbors_tf GPU) (compute_pdf_tf GPU) net (fun _ _ X => X) (fun _ _ X => X) (fun _ X => X) (fun _ X => X) dw db 3 draws2 2
      (Padded [2] 2 ex60_points) (Feat 1 (inl (Padded [2] 2 [[g 3]; [g 4]; [1%R]; [1%R]]))) ex60_sizes = Some (Ok (Feat 3 (inr logits2))) /\
    length logits = 2 /\ nth 0 logits [] = nth 1 logits2 [].
Proof. exact C60_large_ex_proof. Qed.
