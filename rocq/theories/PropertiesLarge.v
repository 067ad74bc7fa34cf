(** The classification network of modelnet40.py (C59).
    Generated by tools/gen_props.py from LargeProofs.v: statements only. *)
From Coq Require Import String List Arith ZArith QArith Reals Qreals Lia Lra Bool Permutation.
From Verif Require Import Tensor TensorFacts Spec SpecText TextFacts PointCloud SpecCloud PointCloudFacts QFacts Grid SpecGrid GridFacts
  Neighbors SpecNeighbors NeighborFacts NeighborProofs Neighborhood NeighborhoodFacts NeighborhoodProofs
  Sampling SpecSampling SamplingFacts SamplingProofs Hierarchy SpecHierarchy HierarchyFacts HierarchyProofs LevelFacts CloudProofs Pdf SpecPdf PdfFacts PdfProofs
  RTensor RTensorFacts Kernels KernelProofs Layers SpecLayers LayerFacts LayerLink LayerProofs ConvProofs Blocks SpecBlocks BlockFacts BlockProofs
  Classifier SpecClassifier ClassifierFacts LastLevelFacts ClassifierProofs LargeFacts.
From Verif Require Import LargeProofs.
Import ListNotations.
Local Open Scope nat_scope.

(** C59, every batch, one cloud included: the logits, or an exception that a
    level with a single point causes. With Poisson disk sampling that is any
    level but the last one, which has to be sampled again, with PointConv any
    level but the first one, which a convolution has to fill. *)
Theorem C59_every_batch_partial :
  forall eps B V points sizes feature_sizes pool_radii conv_radii name t mode iv sv bv net bns bnb bn drop dw db fuel draws,
    let L := length pool_radii in
    let chans := fun i => nth i feature_sizes 0 in
    let u1 := nth (length feature_sizes - 2) feature_sizes 0 in
    let u2 := nth (length feature_sizes - 1) feature_sizes 0 in
    let input := (valid_rows sizes V points, ids_of_sizes sizes) in
    padded_input eps B V points sizes pool_radii mode fuel -> 0 < L ->
    search_radii eps B input L conv_radii -> conv_named name t -> (forall i, i < L -> 4 <= chans i) ->
    mk_large feature_sizes pool_radii conv_radii name mode iv sv bv = Ok net ->
    (forall i k, keeps_shape (bns i k)) -> (forall i k, keeps_shape (bnb i k)) ->
    (forall k, keeps_shape (bn k)) -> (forall k, keeps_shape (drop k)) ->
    (exists k data, k <= L /\ (means mode poisson_names /\ k < L \/ t = TPT /\ 0 < k) /\
       chain (next_level mode eps 3) (firstn k (map (fun r => repeat r 3) pool_radii)) (input :: data) /\
       length (snd (last data input)) = 1 /\
       forall features, length features = B * V -> Forall (fun row => length row = 1) features ->
       large_call GPU eps (find_neighbors_tf GPU) (compute_pdf_tf GPU) net bns bnb bn drop dw db fuel draws B
         (Padded [B] V points) (Feat 1 (inl (Padded [B] V features))) sizes = Some (Err InvalidArgument)) \/
    exists data, chain (next_level mode eps 3) (map (fun r => repeat r 3) pool_radii) (input :: data) /\
      (means mode poisson_names -> forall k b, k < L -> nth_error (input :: data) k = Some b -> 2 <= length (snd b)) /\
      (t = TPT -> forall k b, 0 < k -> nth_error (input :: data) k = Some b -> 2 <= length (snd b)) /\
      forall features, length features = B * V -> Forall (fun row => length row = 1) features ->
      let conv := fun v cin cout r up lo X => script_formula t 1 16 v cin cout r up lo X in
      let strided := fun i p up lo X => block_formula (conv (bv_conv (sv i))) (bns i) (sv i) (chans (i - 1)) (chans i) p (Some p) up lo X in
      let plain := fun i c lo X => block_formula (conv (bv_conv (bv i))) (bnb i) (bv i) (chans i) (chans i) c None lo lo X in
      let first := nth 0 data input in
      let c0 := nth 0 conv_radii 0%Q in
      let start := plain 0 c0 first (conv iv 1 (chans 0) c0 first first (rows_for V (snd first) features)) in
      let encoding := deeper strided plain 1 (tl pool_radii) (tl conv_radii) first (tl data) start in
      let logits := dense_head (fun X => drop 0 (activated (bn 0) X)) (activated (fun X => drop 1 (bn 1 X)))
        dw db B (chans (L - 1)) u1 u2 (averaged B (snd (last data input)) (chans (L - 1)) encoding) in
      matrix B u2 logits /\
      large_call GPU eps (find_neighbors_tf GPU) (compute_pdf_tf GPU) net bns bnb bn drop dw db fuel draws B
        (Padded [B] V points) (Feat 1 (inl (Padded [B] V features))) sizes
      = Some (Ok (Feat u2 (inr logits))).
Proof. exact C59_every_batch_partial_proof. Qed.
Print Assumptions C59_every_batch_partial.

(** C59. The logits: the initial convolution and a residual block on the first
    sampled level, a strided and a plain residual block on every further level,
    the mean over the points of every element, then the two dense layers. There
    is one row of logits per element, in the order of the elements. The point
    number [i] of the first sampled level enters with the feature of the row of
    the padded features that has the same element and the same position in the
    element as [i]. *)
Theorem C59_logits_partial :
  forall eps B V points sizes feature_sizes pool_radii conv_radii name t mode iv sv bv net bns bnb bn drop dw db fuel draws,
    let L := length pool_radii in
    let chans := fun i => nth i feature_sizes 0 in
    let u1 := nth (length feature_sizes - 2) feature_sizes 0 in
    let u2 := nth (length feature_sizes - 1) feature_sizes 0 in
    let input := (valid_rows sizes V points, ids_of_sizes sizes) in
    input_batch eps B V points sizes pool_radii mode fuel -> 0 < L ->
    search_radii eps B input L conv_radii -> conv_named name t -> (t = TPT -> 2 <= B) -> (forall i, i < L -> 4 <= chans i) ->
    mk_large feature_sizes pool_radii conv_radii name mode iv sv bv = Ok net ->
    (forall i k, keeps_shape (bns i k)) -> (forall i k, keeps_shape (bnb i k)) ->
    (forall k, keeps_shape (bn k)) -> (forall k, keeps_shape (drop k)) ->
    exists data, chain (next_level mode eps 3) (map (fun r => repeat r 3) pool_radii) (input :: data) /\
      forall features, length features = B * V -> Forall (fun row => length row = 1) features ->
      let conv := fun v cin cout r up lo X => script_formula t 1 16 v cin cout r up lo X in
      let strided := fun i p up lo X => block_formula (conv (bv_conv (sv i))) (bns i) (sv i) (chans (i - 1)) (chans i) p (Some p) up lo X in
      let plain := fun i c lo X => block_formula (conv (bv_conv (bv i))) (bnb i) (bv i) (chans i) (chans i) c None lo lo X in
      let first := nth 0 data input in
      let c0 := nth 0 conv_radii 0%Q in
      let start := plain 0 c0 first (conv iv 1 (chans 0) c0 first first (rows_for V (snd first) features)) in
      let encoding := deeper strided plain 1 (tl pool_radii) (tl conv_radii) first (tl data) start in
      let logits := dense_head (fun X => drop 0 (activated (bn 0) X)) (activated (fun X => drop 1 (bn 1 X)))
        dw db B (chans (L - 1)) u1 u2 (averaged B (snd (last data input)) (chans (L - 1)) encoding) in
      matrix B u2 logits /\
      large_call GPU eps (find_neighbors_tf GPU) (compute_pdf_tf GPU) net bns bnb bn drop dw db fuel draws B
        (Padded [B] V points) (Feat 1 (inl (Padded [B] V features))) sizes
      = Some (Ok (Feat u2 (inr logits))).
Proof. exact C59_logits_partial_proof. Qed.
Print Assumptions C59_logits_partial.

(** C59. With features in rows, one per point, instead of padded ones: the point
    number [i] of the first sampled level enters with row [i], whichever point of
    the input it is. *)
Theorem C59_flat_features_partial :
  forall eps B V points sizes feature_sizes pool_radii conv_radii name t mode iv sv bv net bns bnb bn drop dw db fuel draws,
    let L := length pool_radii in
    let chans := fun i => nth i feature_sizes 0 in
    let u1 := nth (length feature_sizes - 2) feature_sizes 0 in
    let u2 := nth (length feature_sizes - 1) feature_sizes 0 in
    let input := (valid_rows sizes V points, ids_of_sizes sizes) in
    input_batch eps B V points sizes pool_radii mode fuel -> 0 < L ->
    search_radii eps B input L conv_radii -> conv_named name t -> (t = TPT -> 2 <= B) -> (forall i, i < L -> 4 <= chans i) ->
    mk_large feature_sizes pool_radii conv_radii name mode iv sv bv = Ok net ->
    (forall i k, keeps_shape (bns i k)) -> (forall i k, keeps_shape (bnb i k)) ->
    (forall k, keeps_shape (bn k)) -> (forall k, keeps_shape (drop k)) ->
    exists data, chain (next_level mode eps 3) (map (fun r => repeat r 3) pool_radii) (input :: data) /\
      forall features, length (snd (nth 0 data input)) <= length features -> Forall (fun row => length row = 1) features ->
      let conv := fun v cin cout r up lo X => script_formula t 1 16 v cin cout r up lo X in
      let strided := fun i p up lo X => block_formula (conv (bv_conv (sv i))) (bns i) (sv i) (chans (i - 1)) (chans i) p (Some p) up lo X in
      let plain := fun i c lo X => block_formula (conv (bv_conv (bv i))) (bnb i) (bv i) (chans i) (chans i) c None lo lo X in
      let first := nth 0 data input in
      let c0 := nth 0 conv_radii 0%Q in
      let start := plain 0 c0 first (conv iv 1 (chans 0) c0 first first (firstn (length (snd first)) features)) in
      let encoding := deeper strided plain 1 (tl pool_radii) (tl conv_radii) first (tl data) start in
      let logits := dense_head (fun X => drop 0 (activated (bn 0) X)) (activated (fun X => drop 1 (bn 1 X)))
        dw db B (chans (L - 1)) u1 u2 (averaged B (snd (last data input)) (chans (L - 1)) encoding) in
      matrix B u2 logits /\
      large_call GPU eps (find_neighbors_tf GPU) (compute_pdf_tf GPU) net bns bnb bn drop dw db fuel draws B
        (Padded [B] V points) (Feat 1 (inr features)) sizes
      = Some (Ok (Feat u2 (inr logits))).
Proof. exact C59_flat_features_partial_proof. Qed.
Print Assumptions C59_flat_features_partial.

Theorem C59_features_refuted :
  forall eps B V points sizes feature_sizes r pool_radii conv_radii name t mode iv sv bv net bns bnb bn drop dw db fuel draws features features',
    let radii := r :: pool_radii in
    let input := (valid_rows sizes V points, ids_of_sizes sizes) in
    input_batch eps B V points sizes radii mode fuel ->
    search_radii eps B input (length radii) conv_radii -> conv_named name t -> (t = TPT -> 2 <= B) ->
    (forall i, i < length radii -> 4 <= nth i feature_sizes 0) ->
    mk_large feature_sizes radii conv_radii name mode iv sv bv = Ok net ->
    (forall i k, keeps_shape (bns i k)) -> (forall i k, keeps_shape (bnb i k)) ->
    (forall k, keeps_shape (bn k)) -> (forall k, keeps_shape (drop k)) ->
    length features = B * V -> Forall (fun row => length row = 1) features ->
    length features' = B * V -> Forall (fun row => length row = 1) features' ->
    one_sample mode eps r input ->
    (forall b, b < B -> nth (b * V) features [] = nth (b * V) features' []) ->
    let call := fun features => large_call GPU eps (find_neighbors_tf GPU) (compute_pdf_tf GPU) net bns bnb bn drop dw db fuel draws B
        (Padded [B] V points) (Feat 1 (inl (Padded [B] V features))) sizes in
    (exists logits, call features = Some (Ok logits)) /\ call features = call features'.
Proof. exact C59_features_refuted_proof. Qed.
Print Assumptions C59_features_refuted.

(** C59. A name that is none of the three is rejected by the constructor. *)
Theorem C59_unknown :
  forall feature_sizes r pool_radii conv_radii name mode iv sv bv,
    ~ (exists t, conv_named name t) ->
    mk_large feature_sizes (r :: pool_radii) conv_radii name mode iv sv bv = Err ValueError.
Proof. exact C59_unknown_proof. Qed.
Print Assumptions C59_unknown.

(** Two levels, the second block widens the features from 4 to 8. *)
Example C59_logits_partial_ex :
  input_batch (1#1000) 2 3 ex58_points ex58_sizes [1#1; 4#1]%Q "poisson disk" 3 /\
  search_radii (1#1000) 2 (valid_rows ex58_sizes 3 ex58_points, ids_of_sizes ex58_sizes) 2 [1#1; 4#1]%Q /\
  forall iv sv bv dw db draws f, exists net logits,
    mk_large [4; 8; 8; 3] [1#1; 4#1]%Q [1#1; 4#1]%Q "MCConv" "poisson disk" iv sv bv = Ok net /\
    large_call GPU (1#1000) (find_neighbors_tf GPU) (compute_pdf_tf GPU) net (fun _ _ X => X) (fun _ _ X => X) (fun _ X => X) (fun _ X => X) dw db 3 draws 2
      (Padded [2] 3 ex58_points) (Feat 1 (inl (Padded [2] 3 (table 6 1 f)))) ex58_sizes = Some (Ok (Feat 3 (inr logits))) /\
    length logits = 2.
Proof. exact C59_logits_partial_ex_proof. Qed.

(** The same network with six rows. *)
Example C59_flat_features_partial_ex :
  input_batch (1#1000) 2 3 ex58_points ex58_sizes [1#1; 4#1]%Q "poisson disk" 3 /\
  search_radii (1#1000) 2 (valid_rows ex58_sizes 3 ex58_points, ids_of_sizes ex58_sizes) 2 [1#1; 4#1]%Q /\
  forall iv sv bv dw db draws, exists net n, 2 <= n /\
    mk_large [4; 8; 8; 3] [1#1; 4#1]%Q [1#1; 4#1]%Q "MCConv" "poisson disk" iv sv bv = Ok net /\
    forall m f, n <= m -> exists logits,
    large_call GPU (1#1000) (find_neighbors_tf GPU) (compute_pdf_tf GPU) net (fun _ _ X => X) (fun _ _ X => X) (fun _ X => X) (fun _ X => X) dw db 3 draws 2
      (Padded [2] 3 ex58_points) (Feat 1 (inr (table m 1 f))) ex58_sizes = Some (Ok (Feat 3 (inr logits))) /\
    length logits = 2.
Proof. exact C59_flat_features_partial_ex_proof. Qed.

(** One level with one point per element: the feature of the second point of the
    first element is ignored. *)
Example C59_features_refuted_ex :
  input_batch (1#1000) 2 3 ex58_points ex58_sizes [4#1]%Q "poisson disk" 3 /\
  search_radii (1#1000) 2 (valid_rows ex58_sizes 3 ex58_points, ids_of_sizes ex58_sizes) 1 [4#1]%Q /\
  one_sample "poisson disk" (1#1000) (4#1) (valid_rows ex58_sizes 3 ex58_points, ids_of_sizes ex58_sizes) /\
  forall iv sv bv dw db draws x y, exists net,
    mk_large [8; 8; 3] [4#1]%Q [4#1]%Q "MCConv" "poisson disk" iv sv bv = Ok net /\
    let call := fun z => large_call GPU (1#1000) (find_neighbors_tf GPU) (compute_pdf_tf GPU) net (fun _ _ X => X) (fun _ _ X => X) (fun _ X => X) (fun _ X => X) dw db 3 draws 2
      (Padded [2] 3 ex58_points) (Feat 1 (inl (Padded [2] 3 [[1%R]; [z]; [1%R]; [1%R]; [1%R]; [1%R]]))) ex58_sizes in
    call x = call y.
Proof. exact C59_features_refuted_ex_proof. Qed.

Example C59_unknown_ex :
  forall iv sv bv, mk_large [8; 8; 3] [1#1]%Q [1#1]%Q "KPconv" "poisson disk" iv sv bv = Err ValueError.
Proof. exact C59_unknown_ex_proof. Qed.
