(** The classification network of modelnet40_small.py (C58).
    Generated by tools/gen_props.py from ClassifierProofs.v: statements only. *)
From Coq Require Import String List Arith ZArith QArith Reals Qreals Lia Lra Bool Permutation.
From Verif Require Import Tensor TensorFacts Spec SpecText TextFacts PointCloud SpecCloud PointCloudFacts QFacts Grid SpecGrid GridFacts
  Neighbors SpecNeighbors NeighborFacts NeighborProofs Neighborhood NeighborhoodFacts NeighborhoodProofs
  Sampling SpecSampling SamplingFacts SamplingProofs Hierarchy SpecHierarchy HierarchyFacts HierarchyProofs LevelFacts CloudProofs Pdf SpecPdf PdfFacts PdfProofs
  RTensor RTensorFacts Kernels KernelProofs Layers SpecLayers LayerFacts LayerLink LayerProofs ConvProofs Blocks SpecBlocks BlockFacts BlockProofs
  Classifier SpecClassifier ClassifierFacts LastLevelFacts.
From Verif Require Import ClassifierProofs.
Import ListNotations.
Local Open Scope nat_scope.

(** C58, every batch, one cloud included: a row of logits per point of the last
    level, or an exception that a level with a single point causes. With Poisson
    disk sampling that is any level but the last one, which has to be sampled
    again, with PointConv any level but the first one, which a convolution has
    to fill. *)
Theorem C58_every_batch_partial :
  forall eps B V points sizes feature_sizes sample_radii conv_radii name t mode vars ow ob net bn drop dw db fuel draws features,
    let L := length sample_radii in
    let chans := fun i => nth i feature_sizes 0 in
    let u1 := nth (length feature_sizes - 2) feature_sizes 0 in
    let u2 := nth (length feature_sizes - 1) feature_sizes 0 in
    let input := (valid_rows sizes V points, ids_of_sizes sizes) in
    padded_input eps B V points sizes sample_radii mode fuel -> 0 < L ->
    search_radii eps B input L conv_radii -> conv_named name t -> Forall (fun c => 0 < c) feature_sizes ->
    mk_small feature_sizes sample_radii conv_radii name mode vars ow ob = Ok net ->
    (forall k, keeps_shape (bn k)) -> (forall k, keeps_shape (drop k)) ->
    length features = B * V -> Forall (fun row => length row = chans 0) features ->
    (exists k data, k <= L /\ (means mode poisson_names /\ k < L \/ t = TPT /\ 0 < k) /\
       chain (next_level mode eps 3) (firstn k (map (fun r => repeat r 3) sample_radii)) (input :: data) /\
       length (snd (last data input)) = 1 /\
       small_call GPU eps (find_neighbors_tf GPU) (compute_pdf_tf GPU) net bn drop dw db fuel draws B
         (Padded [B] V points) (Feat (chans 0) (inl (Padded [B] V features))) sizes
       = Some (Err InvalidArgument)) \/
    exists data, chain (next_level mode eps 3) (map (fun r => repeat r 3) sample_radii) (input :: data) /\
      (means mode poisson_names -> forall k b, k < L -> nth_error (input :: data) k = Some b -> 2 <= length (snd b)) /\
      (t = TPT -> forall k b, 0 < k -> nth_error (input :: data) k = Some b -> 2 <= length (snd b)) /\
      let bottom := snd (last data input) in
      let conv := fun i r up lo X => script_formula t 4 8 (vars i) (chans i) (chans (S i)) r up lo X in
      let features_below := encoded conv (small_post bn chans ow ob) 0 conv_radii input data (rows_for V (snd input) features) in
      let encoding := by_element B bottom features_below in
      let logits := dense_head (fun X => drop 0 (activated (bn (2 * L - 2)) X)) (fun X => drop 1 (activated (bn (2 * L - 1)) X))
        dw db (length bottom) (chans L) u1 u2 encoding in
      matrix (length bottom) u2 logits /\ all_nonempty B bottom /\
      (forall r, nth_error sample_radii (L - 1) = Some r -> one_sample mode eps r input ->
         length bottom = B /\
         forall b, b < B -> exists k, k < B /\ nth k bottom 0 = b /\ nth b encoding [] = nth k features_below []) /\
      small_call GPU eps (find_neighbors_tf GPU) (compute_pdf_tf GPU) net bn drop dw db fuel draws B
        (Padded [B] V points) (Feat (chans 0) (inl (Padded [B] V features))) sizes
      = Some (Ok (Feat u2 (inr logits))).
Proof. exact C58_every_batch_partial_proof. Qed.
Print Assumptions C58_every_batch_partial.

(** C58. The logits: the convolutions along the hierarchy with normalisation,
    activation and an affine map of the channels between them, the rows of the
    last level sorted by batch element, then the two dense layers. The input
    features belong to the points of the same rows. There is one row of logits
    per point of the last level, thus at least one per element; exactly one per
    element, in the order of the elements, if the last radius exceeds the size
    of the elements. *)
Theorem C58_logits_partial :
  forall eps B V points sizes feature_sizes sample_radii conv_radii name t mode vars ow ob net bn drop dw db fuel draws features,
    let L := length sample_radii in
    let chans := fun i => nth i feature_sizes 0 in
    let u1 := nth (length feature_sizes - 2) feature_sizes 0 in
    let u2 := nth (length feature_sizes - 1) feature_sizes 0 in
    let input := (valid_rows sizes V points, ids_of_sizes sizes) in
    input_batch eps B V points sizes sample_radii mode fuel -> 0 < L ->
    search_radii eps B input L conv_radii -> conv_named name t -> (t = TPT -> 2 <= B) -> Forall (fun c => 0 < c) feature_sizes ->
    mk_small feature_sizes sample_radii conv_radii name mode vars ow ob = Ok net ->
    (forall k, keeps_shape (bn k)) -> (forall k, keeps_shape (drop k)) ->
    length features = B * V -> Forall (fun row => length row = chans 0) features ->
    exists data, chain (next_level mode eps 3) (map (fun r => repeat r 3) sample_radii) (input :: data) /\
      let bottom := snd (last data input) in
      let conv := fun i r up lo X => script_formula t 4 8 (vars i) (chans i) (chans (S i)) r up lo X in
      let features_below := encoded conv (small_post bn chans ow ob) 0 conv_radii input data (rows_for V (snd input) features) in
      let encoding := by_element B bottom features_below in
      let logits := dense_head (fun X => drop 0 (activated (bn (2 * L - 2)) X)) (fun X => drop 1 (activated (bn (2 * L - 1)) X))
        dw db (length bottom) (chans L) u1 u2 encoding in
      matrix (length bottom) u2 logits /\ all_nonempty B bottom /\
      (forall r, nth_error sample_radii (L - 1) = Some r -> one_sample mode eps r input ->
         length bottom = B /\
         forall b, b < B -> exists k, k < B /\ nth k bottom 0 = b /\ nth b encoding [] = nth k features_below []) /\
      small_call GPU eps (find_neighbors_tf GPU) (compute_pdf_tf GPU) net bn drop dw db fuel draws B
        (Padded [B] V points) (Feat (chans 0) (inl (Padded [B] V features))) sizes
      = Some (Ok (Feat u2 (inr logits))).
Proof. exact C58_logits_partial_proof. Qed.
Print Assumptions C58_logits_partial.

(** C58 refuted: if no two points of an element are closer than the radius of
    the only level, there is a row of logits for every point of the batch, thus
    more rows than elements as soon as an element has two points. *)
Theorem C58_rows_refuted :
  forall eps B V points sizes feature_sizes r conv_radii name t mode vars ow ob net bn drop dw db fuel draws features,
    let input := (valid_rows sizes V points, ids_of_sizes sizes) in
    let u2 := nth (length feature_sizes - 1) feature_sizes 0 in
    input_batch eps B V points sizes [r] mode fuel -> means mode poisson_names ->
    search_radii eps B input 1 conv_radii -> conv_named name t -> Forall (fun c => 0 < c) feature_sizes ->
    mk_small feature_sizes [r] conv_radii name mode vars ow ob = Ok net ->
    (forall k, keeps_shape (bn k)) -> (forall k, keeps_shape (drop k)) ->
    length features = B * V -> Forall (fun row => length row = nth 0 feature_sizes 0) features ->
    (forall i j, i < length (snd input) -> j < length (snd input) -> i <> j -> nth i (snd input) 0 = nth j (snd input) 0 ->
       (r * r <= dist2 3 (nth i (fst input) []) (nth j (fst input) []))%Q) ->
    (exists b, 1 < nth b sizes 0) ->
    exists logits,
      small_call GPU eps (find_neighbors_tf GPU) (compute_pdf_tf GPU) net bn drop dw db fuel draws B
        (Padded [B] V points) (Feat (nth 0 feature_sizes 0) (inl (Padded [B] V features))) sizes
      = Some (Ok (Feat u2 (inr logits))) /\ length logits = length (snd input) /\ B < length logits.
Proof. exact C58_rows_refuted_proof. Qed.
Print Assumptions C58_rows_refuted.

(** C58. A name that is none of the three is rejected by the constructor. *)
Theorem C58_unknown :
  forall feature_sizes r sample_radii conv_radii name mode vars ow ob,
    ~ (exists t, conv_named name t) ->
    mk_small feature_sizes (r :: sample_radii) conv_radii name mode vars ow ob = Err ValueError.
Proof. exact C58_unknown_proof. Qed.
Print Assumptions C58_unknown.

(** Two levels, one row of logits per element. *)
Example C58_logits_partial_ex :
  input_batch (1#1000) 2 3 ex58_points ex58_sizes [1#1; 4#1]%Q "poisson disk" 3 /\
  search_radii (1#1000) 2 (valid_rows ex58_sizes 3 ex58_points, ids_of_sizes ex58_sizes) 2 [1#1; 4#1]%Q /\
  one_sample "poisson disk" (1#1000) (4#1) (valid_rows ex58_sizes 3 ex58_points, ids_of_sizes ex58_sizes) /\
  forall vars ow ob dw db draws f, exists net logits,
    mk_small [1; 8; 8; 8; 3] [1#1; 4#1]%Q [1#1; 4#1]%Q "MCConv" "poisson disk" vars ow ob = Ok net /\
    small_call GPU (1#1000) (find_neighbors_tf GPU) (compute_pdf_tf GPU) net (fun _ X => X) (fun _ X => X) dw db 3 draws 2
      (Padded [2] 3 ex58_points) (Feat 1 (inl (Padded [2] 3 (table 6 1 f)))) ex58_sizes = Some (Ok (Feat 3 (inr logits))) /\
    length logits = 2.
Proof. exact C58_logits_partial_ex_proof. Qed.

(** One level with a radius smaller than the first element: three rows of
    logits for two elements. *)
Example C58_rows_refuted_ex :
  input_batch (1#1000) 2 3 ex58_points ex58_sizes [1#1]%Q "poisson disk" 3 /\
  search_radii (1#1000) 2 (valid_rows ex58_sizes 3 ex58_points, ids_of_sizes ex58_sizes) 1 [1#1]%Q /\
  forall vars ow ob dw db draws f, exists net logits,
    mk_small [1; 8; 8; 3] [1#1]%Q [1#1]%Q "MCConv" "poisson disk" vars ow ob = Ok net /\
    small_call GPU (1#1000) (find_neighbors_tf GPU) (compute_pdf_tf GPU) net (fun _ X => X) (fun _ X => X) dw db 3 draws 2
      (Padded [2] 3 ex58_points) (Feat 1 (inl (Padded [2] 3 (table 6 1 f)))) ex58_sizes = Some (Ok (Feat 3 (inr logits))) /\
    length logits = 3.
Proof. exact C58_rows_refuted_ex_proof. Qed.

Example C58_unknown_ex :
  forall vars ow ob, mk_small [1; 8; 8; 3] [1#1]%Q [1#1]%Q "mcconv" "poisson disk" vars ow ob = Err ValueError.
Proof. exact C58_unknown_ex_proof. Qed.
