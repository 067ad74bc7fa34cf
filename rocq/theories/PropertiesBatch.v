(** Independence of the batch elements (C56).
    Generated by tools/gen_props.py from BatchProofs.v: statements only. *)
From Coq Require Import String List Arith ZArith QArith Reals Qreals Lia Lra Bool Permutation FunctionalExtensionality.
From Verif Require Import Tensor TensorFacts Spec SpecText TextFacts PointCloud SpecCloud PointCloudFacts QFacts Grid SpecGrid GridFacts
  Neighbors SpecNeighbors NeighborFacts NeighborProofs Neighborhood NeighborhoodFacts NeighborhoodProofs
  Sampling SpecSampling SamplingFacts SamplingProofs Hierarchy SpecHierarchy HierarchyFacts Pdf SpecPdf PdfFacts PdfProofs
  RTensor RTensorFacts Layers SpecLayers LayerFacts LayerLink LayerProofs ConvProofs MoveProofs SpecBatch.
From Verif Require Import BatchProofs.
Import ListNotations.
Local Open Scope nat_scope.

(** C56. Two calls of a layer with different batches: if element [e] of the
    first batch and element [e2] of the second have the same input points, input
    features and output points, then the output features of these elements are
    the same, whatever the other elements are. *)
Theorem C56_layers_partial :
  forall eps eps2 D r e e2 rows ids pin crows cids pout rows2 ids2 pin2 crows2 cids2 pout2 feats feats2 cin F F2,
    workable eps D r rows ids pin crows cids pout -> workable eps2 D r rows2 ids2 pin2 crows2 cids2 pout2 ->
    given feats pin cin F -> given feats2 pin2 cin F2 ->
    same_element e rows ids e2 rows2 ids2 -> same_element e crows cids e2 crows2 cids2 -> same_element e F ids e2 F2 ids2 ->
    let search := find_neighbors_tf GPU in let kde := compute_pdf_tf GPU in
    (forall cout mlps sizes act a w b fw layer bandwidth,
       mk_mcconv cin cout D mlps sizes act w b fw = Ok layer -> 0 < cout -> activation act a -> (0 < bandwidth)%R ->
       same_output cout
         e cids (mcconv_call GPU eps search kde layer feats pin pout r None bandwidth false false)
         e2 cids2 (mcconv_call GPU eps2 search kde layer feats2 pin2 pout2 r None bandwidth false false)) /\
    (forall cout K deformable interpolation wt kernel_points w wo spherical layer influence,
       mk_kpconv cin cout K D deformable interpolation
         (Some (ttab [K; D] (fun idx => match idx with [k; d] => kernel_points k d | _ => 0%R end))) spherical w wo = Ok layer ->
       0 < cin -> 0 < K -> weighting interpolation wt ->
       exists o o2 state state2,
         kpconv_call GPU eps search layer feats pin pout r None influence false false = Ok (o, state) /\
         kpconv_call GPU eps2 search layer feats2 pin2 pout2 r None influence false false = Ok (o2, state2) /\
         same_output cout e cids (Ok o) e2 cids2 (Ok o2)) /\
    (forall cout hidden act a axis bias w w1 b1 w2 b2 bandwidth,
       2 <= length cids -> 2 <= length cids2 -> 0 < cin -> 0 < hidden -> activation act a -> (0 < bandwidth)%R ->
       let layer := mk_pointconv cin cout D hidden act axis bias w w1 b1 w2 b2 in
       same_output cout
         e cids (pointconv_call GPU eps search kde layer feats pin pout r None bandwidth false false)
         e2 cids2 (pointconv_call GPU eps2 search kde layer feats2 pin2 pout2 r None bandwidth false false)) /\
    same_output cin e cids (max_pooling GPU eps search feats pin pout (Some [r]) false false)
      e2 cids2 (max_pooling GPU eps2 search feats2 pin2 pout2 (Some [r]) false false) /\
    same_output cin e cids (average_pooling GPU eps search feats pin pout (Some [r]) false false)
      e2 cids2 (average_pooling GPU eps2 search feats2 pin2 pout2 (Some [r]) false false).
Proof. exact C56_layers_partial_proof. Qed.
Print Assumptions C56_layers_partial.

(** C56, the layers without neighbors: the rows that Conv1x1 computes for an
    element, and the row of the element after global pooling. *)
Theorem C56_pointwise :
  forall eps eps2 D e e2 rows ids B p rows2 ids2 B2 p2 feats feats2 cin F F2,
    cloud GPU eps D rows ids B p -> cloud GPU eps2 D rows2 ids2 B2 p2 ->
    given feats p cin F -> given feats2 p2 cin F2 ->
    same_element e rows ids e2 rows2 ids2 -> same_element e F ids e2 F2 ids2 -> e < B -> e2 < B2 ->
    (forall cout w b layer, mk_conv1x1 cin cout w b = Ok layer ->
       same_output cout e ids (conv1x1_call layer feats p false false) e2 ids2 (conv1x1_call layer feats2 p2 false false)) /\
    forall dev, exists mx av mx2 av2,
      global_max_pooling dev feats p false = Ok mx /\ global_average_pooling dev feats p false = Ok av /\
      global_max_pooling dev feats2 p2 false = Ok mx2 /\ global_average_pooling dev feats2 p2 false = Ok av2 /\
      forall c, c < cin -> tget mx [e; c] = tget mx2 [e2; c] /\ tget av [e; c] = tget av2 [e2; c].
Proof. exact C56_pointwise_proof. Qed.
Print Assumptions C56_pointwise.

Example C56_layers_partial_ex :
  workable (1#1000) 2 1 exN_rows exN_ids (seg 2 exN_rows exN_ids 2) exN_centers exN_cids (seg 2 exN_centers exN_cids 2) /\
  workable (1#1000) 2 1 exB_rows exB_ids (seg 2 exB_rows exB_ids 2) exB_centers exB_cids (seg 2 exB_centers exB_cids 2) /\
  given (Feat 2 (inr exN_F)) (seg 2 exN_rows exN_ids 2) 2 exN_F /\ given (Feat 2 (inr exB_F)) (seg 2 exB_rows exB_ids 2) 2 exB_F /\
  same_element 1 exN_rows exN_ids 0 exB_rows exB_ids /\ element 1 exN_rows exN_ids = [[1#2;1#2];[9#10;9#10]] /\
  same_element 1 exN_centers exN_cids 0 exB_centers exB_cids /\ same_element 1 exN_F exN_ids 0 exB_F exB_ids.
Proof. exact C56_layers_partial_ex_proof. Qed.

Example C56_pointwise_ex :
  cloud GPU (1#1000) 2 exN_rows exN_ids 2 (seg 2 exN_rows exN_ids 2) /\
  cloud GPU (1#1000) 2 exB_rows exB_ids 2 (seg 2 exB_rows exB_ids 2) /\
  given (Feat 2 (inr exN_F)) (seg 2 exN_rows exN_ids 2) 2 exN_F /\ given (Feat 2 (inr exB_F)) (seg 2 exB_rows exB_ids 2) 2 exB_F /\
  same_element 1 exN_rows exN_ids 0 exB_rows exB_ids /\ same_element 1 exN_F exN_ids 0 exB_F exB_ids.
Proof. exact C56_pointwise_ex_proof. Qed.
