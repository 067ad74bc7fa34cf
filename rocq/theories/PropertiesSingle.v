(** The classification networks on a batch of one cloud (C58, C59).
    Generated by tools/gen_props.py from SingleProofs.v: statements only. *)
From Coq Require Import String List Arith ZArith QArith Reals Qreals Lia Lra Bool Permutation.
From Verif Require Import Tensor TensorFacts Spec SpecText TextFacts PointCloud SpecCloud PointCloudFacts QFacts Grid SpecGrid GridFacts
  Neighbors SpecNeighbors NeighborFacts NeighborProofs Neighborhood NeighborhoodFacts NeighborhoodProofs
  Sampling SpecSampling SamplingFacts SamplingProofs Hierarchy SpecHierarchy HierarchyFacts HierarchyProofs LevelFacts CloudProofs Pdf SpecPdf PdfFacts PdfProofs
  RTensor RTensorFacts Kernels KernelProofs Layers SpecLayers LayerFacts LayerLink LayerProofs ConvProofs Blocks SpecBlocks BlockFacts BlockProofs
  Classifier SpecClassifier ClassifierFacts LastLevelFacts ClassifierProofs LargeFacts LargeProofs.
From Verif Require Import SingleProofs.
Import ListNotations.
Local Open Scope nat_scope.

(** C58 and C59, one cloud, Poisson disk sampling with two or more levels, the
    first radius larger than the cloud: the call raises an exception. *)
Theorem C58_single_poisson_refuted :
  forall eps V points n feature_sizes r r' sample_radii conv_radii name mode vars ow ob net bn drop dw db fuel draws features,
    let input := (valid_rows [n] V points, ids_of_sizes [n]) in
    length points = V -> Forall (fun x => length x = 3) points -> 1 <= n <= V -> means mode poisson_names ->
    buildable eps 3 (fst input) (snd input) 1 (map (fun r => [r]) (r :: r' :: sample_radii)) fuel -> one_sample mode eps r input ->
    mk_small feature_sizes (r :: r' :: sample_radii) conv_radii name mode vars ow ob = Ok net ->
    small_call GPU eps (find_neighbors_tf GPU) (compute_pdf_tf GPU) net bn drop dw db fuel draws 1
      (Padded [1] V points) features [n] = Some (Err InvalidArgument).
Proof. exact C58_single_poisson_refuted_proof. Qed.
Print Assumptions C58_single_poisson_refuted.

Theorem C59_single_poisson_refuted :
  forall eps V points n feature_sizes r r' pool_radii conv_radii name mode iv sv bv net bns bnb bn drop dw db fuel draws features,
    let input := (valid_rows [n] V points, ids_of_sizes [n]) in
    length points = V -> Forall (fun x => length x = 3) points -> 1 <= n <= V -> means mode poisson_names ->
    buildable eps 3 (fst input) (snd input) 1 (map (fun r => [r]) (r :: r' :: pool_radii)) fuel -> one_sample mode eps r input ->
    mk_large feature_sizes (r :: r' :: pool_radii) conv_radii name mode iv sv bv = Ok net ->
    large_call GPU eps (find_neighbors_tf GPU) (compute_pdf_tf GPU) net bns bnb bn drop dw db fuel draws 1
      (Padded [1] V points) features [n] = Some (Err InvalidArgument).
Proof. exact C59_single_poisson_refuted_proof. Qed.
Print Assumptions C59_single_poisson_refuted.

(** C58 and C59, PointConv on one cloud whose first sample is one point: the call
    raises an exception. *)
Theorem C58_single_pointconv_refuted :
  forall eps V points sizes feature_sizes r sample_radii conv_radii mode vars ow ob net bn drop dw db fuel draws features,
    let radii := r :: sample_radii in
    let input := (valid_rows sizes V points, ids_of_sizes sizes) in
    input_batch eps 1 V points sizes radii mode fuel -> search_radii eps 1 input (length radii) conv_radii -> one_sample mode eps r input ->
    mk_small feature_sizes radii conv_radii "PointConv" mode vars ow ob = Ok net ->
    length features = V -> Forall (fun row => length row = nth 0 feature_sizes 0) features ->
    small_call GPU eps (find_neighbors_tf GPU) (compute_pdf_tf GPU) net bn drop dw db fuel draws 1
      (Padded [1] V points) (Feat (nth 0 feature_sizes 0) (inl (Padded [1] V features))) sizes = Some (Err InvalidArgument).
Proof. exact C58_single_pointconv_refuted_proof. Qed.
Print Assumptions C58_single_pointconv_refuted.

Theorem C59_single_pointconv_refuted :
  forall eps V points sizes feature_sizes r pool_radii conv_radii mode iv sv bv net bns bnb bn drop dw db fuel draws features,
    let radii := r :: pool_radii in
    let input := (valid_rows sizes V points, ids_of_sizes sizes) in
    input_batch eps 1 V points sizes radii mode fuel -> search_radii eps 1 input (length radii) conv_radii -> one_sample mode eps r input ->
    mk_large feature_sizes radii conv_radii "PointConv" mode iv sv bv = Ok net ->
    length features = V -> Forall (fun row => length row = 1) features ->
    large_call GPU eps (find_neighbors_tf GPU) (compute_pdf_tf GPU) net bns bnb bn drop dw db fuel draws 1
      (Padded [1] V points) (Feat 1 (inl (Padded [1] V features))) sizes = Some (Err InvalidArgument).
Proof. exact C59_single_pointconv_refuted_proof. Qed.
Print Assumptions C59_single_pointconv_refuted.

(** One cloud, cell average and MCConv: one row of logits. *)
Example C58_single_ex :
  input_batch (1#1000) 1 3 exS_points [2] [1#1; 4#1]%Q "cell average" 3 /\
  forall vars ow ob dw db draws f, exists net logits,
    mk_small [1; 8; 8; 8; 3] [1#1; 4#1]%Q [1#1; 4#1]%Q "MCConv" "cell average" vars ow ob = Ok net /\
    small_call GPU (1#1000) (find_neighbors_tf GPU) (compute_pdf_tf GPU) net (fun _ X => X) (fun _ X => X) dw db 3 draws 1
      (Padded [1] 3 exS_points) (Feat 1 (inl (Padded [1] 3 (table 3 1 f)))) [2] = Some (Ok (Feat 3 (inr logits))) /\
    length logits = 1.
Proof. exact C58_single_ex_proof. Qed.

Example C59_single_ex :
  input_batch (1#1000) 1 3 exS_points [2] [1#1; 4#1]%Q "cell average" 3 /\
  forall iv sv bv dw db draws f, exists net logits,
    mk_large [4; 8; 8; 3] [1#1; 4#1]%Q [1#1; 4#1]%Q "MCConv" "cell average" iv sv bv = Ok net /\
    large_call GPU (1#1000) (find_neighbors_tf GPU) (compute_pdf_tf GPU) net (fun _ _ X => X) (fun _ _ X => X) (fun _ X => X) (fun _ X => X) dw db 3 draws 1
      (Padded [1] 3 exS_points) (Feat 1 (inl (Padded [1] 3 (table 3 1 f)))) [2] = Some (Ok (Feat 3 (inr logits))) /\
    length logits = 1.
Proof. exact C59_single_ex_proof. Qed.

(** The same cloud with Poisson disk sampling and the radii 4, 4. *)
Example C58_single_poisson_refuted_ex :
  forall vars ow ob dw db draws f, exists net,
    mk_small [1; 8; 8; 8; 3] [4#1; 4#1]%Q [4#1; 4#1]%Q "MCConv" "poisson disk" vars ow ob = Ok net /\
    small_call GPU (1#1000) (find_neighbors_tf GPU) (compute_pdf_tf GPU) net (fun _ X => X) (fun _ X => X) dw db 3 draws 1
      (Padded [1] 3 exS_points) (Feat 1 (inl (Padded [1] 3 (table 3 1 f)))) [2] = Some (Err InvalidArgument).
Proof. exact C58_single_poisson_refuted_ex_proof. Qed.

Example C59_single_poisson_refuted_ex :
  forall iv sv bv dw db draws f, exists net,
    mk_large [4; 8; 8; 3] [4#1; 4#1]%Q [4#1; 4#1]%Q "MCConv" "poisson disk" iv sv bv = Ok net /\
    large_call GPU (1#1000) (find_neighbors_tf GPU) (compute_pdf_tf GPU) net (fun _ _ X => X) (fun _ _ X => X) (fun _ X => X) (fun _ X => X) dw db 3 draws 1
      (Padded [1] 3 exS_points) (Feat 1 (inl (Padded [1] 3 (table 3 1 f)))) [2] = Some (Err InvalidArgument).
Proof. exact C59_single_poisson_refuted_ex_proof. Qed.

(** The same cloud with PointConv, cell average and the radii 4, 4. *)
Example C58_single_pointconv_refuted_ex :
  forall vars ow ob dw db draws f, exists net,
    mk_small [1; 8; 8; 8; 3] [4#1; 4#1]%Q [4#1; 4#1]%Q "PointConv" "cell average" vars ow ob = Ok net /\
    small_call GPU (1#1000) (find_neighbors_tf GPU) (compute_pdf_tf GPU) net (fun _ X => X) (fun _ X => X) dw db 3 draws 1
      (Padded [1] 3 exS_points) (Feat 1 (inl (Padded [1] 3 (table 3 1 f)))) [2] = Some (Err InvalidArgument).
Proof. exact C58_single_pointconv_refuted_ex_proof. Qed.

Example C59_single_pointconv_refuted_ex :
  forall iv sv bv dw db draws f, exists net,
    mk_large [4; 8; 8; 3] [4#1; 4#1]%Q [4#1; 4#1]%Q "PointConv" "cell average" iv sv bv = Ok net /\
    large_call GPU (1#1000) (find_neighbors_tf GPU) (compute_pdf_tf GPU) net (fun _ _ X => X) (fun _ _ X => X) (fun _ X => X) (fun _ X => X) dw db 3 draws 1
      (Padded [1] 3 exS_points) (Feat 1 (inl (Padded [1] 3 (table 3 1 f)))) [2] = Some (Err InvalidArgument).
Proof. exact C59_single_pointconv_refuted_ex_proof. Qed.

Example C58_every_batch_partial_ex :
  padded_input (1#1000) 1 3 exS_points [2] [1#1; 4#1; 4#1]%Q "poisson disk" 3 /\ padded_input (1#1000) 1 3 exS_points [2] [4#1]%Q "poisson disk" 3 /\
  (forall vars ow ob dw db f, exists net,
    mk_small [1; 8; 8; 8; 8; 3] [1#1; 4#1; 4#1]%Q [4#1; 4#1; 4#1]%Q "MCConv" "poisson disk" vars ow ob = Ok net /\
    small_call GPU (1#1000) (find_neighbors_tf GPU) (compute_pdf_tf GPU) net (fun _ X => X) (fun _ X => X) dw db 3 (fun _ k => k) 1
      (Padded [1] 3 exS_points) (Feat 1 (inl (Padded [1] 3 (table 3 1 f)))) [2] = Some (Err InvalidArgument)) /\
  forall vars ow ob dw db draws f, exists net logits,
    mk_small [1; 8; 8; 3] [4#1]%Q [4#1]%Q "MCConv" "poisson disk" vars ow ob = Ok net /\
    small_call GPU (1#1000) (find_neighbors_tf GPU) (compute_pdf_tf GPU) net (fun _ X => X) (fun _ X => X) dw db 3 draws 1
      (Padded [1] 3 exS_points) (Feat 1 (inl (Padded [1] 3 (table 3 1 f)))) [2] = Some (Ok (Feat 3 (inr logits))) /\
    length logits = 1.
Proof. exact C58_every_batch_partial_ex_proof. Qed.

Example C59_every_batch_partial_ex :
  padded_input (1#1000) 1 3 exS_points [2] [1#1; 4#1; 4#1]%Q "poisson disk" 3 /\ padded_input (1#1000) 1 3 exS_points [2] [4#1]%Q "poisson disk" 3 /\
  (forall iv sv bv dw db f, exists net,
    mk_large [4; 8; 8; 8; 3] [1#1; 4#1; 4#1]%Q [4#1; 4#1; 4#1]%Q "MCConv" "poisson disk" iv sv bv = Ok net /\
    large_call GPU (1#1000) (find_neighbors_tf GPU) (compute_pdf_tf GPU) net (fun _ _ X => X) (fun _ _ X => X) (fun _ X => X) (fun _ X => X) dw db 3 (fun _ k => k) 1
      (Padded [1] 3 exS_points) (Feat 1 (inl (Padded [1] 3 (table 3 1 f)))) [2] = Some (Err InvalidArgument)) /\
  forall iv sv bv dw db draws f, exists net logits,
    mk_large [4; 8; 3] [4#1]%Q [4#1]%Q "MCConv" "poisson disk" iv sv bv = Ok net /\
    large_call GPU (1#1000) (find_neighbors_tf GPU) (compute_pdf_tf GPU) net (fun _ _ X => X) (fun _ _ X => X) (fun _ X => X) (fun _ X => X) dw db 3 draws 1
      (Padded [1] 3 exS_points) (Feat 1 (inl (Padded [1] 3 (table 3 1 f)))) [2] = Some (Ok (Feat 3 (inr logits))) /\
    length logits = 1.
Proof. exact C59_every_batch_partial_ex_proof. Qed.
