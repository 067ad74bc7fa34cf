(** Permutation equivariance and translation invariance of the layers.
    Generated by tools/gen_props.py from MoveProofs.v: statements only. *)
From Coq Require Import String List Arith ZArith QArith Reals Qreals Lia Lra Bool Permutation.
From Verif Require Import Tensor TensorFacts Spec SpecText TextFacts PointCloud SpecCloud PointCloudFacts QFacts Grid SpecGrid GridFacts
  Neighbors SpecNeighbors NeighborFacts NeighborProofs Neighborhood NeighborhoodFacts NeighborhoodProofs
  Sampling SpecSampling SamplingFacts SamplingProofs Hierarchy SpecHierarchy HierarchyFacts Pdf SpecPdf PdfFacts PdfProofs
  RTensor RTensorFacts Layers SpecLayers LayerFacts LayerLink LayerProofs ConvProofs.
From Verif Require Import MoveProofs.
Import ListNotations.
Local Open Scope nat_scope.

(** C32 and C33, for all layers with neighbors: if the input points (with their
    features) are reordered by [s], the output points by [s'], and both clouds
    are translated by the same vector, the rows of the output are those of the
    original output in the order [s']; the regularisation loss of KPConv does
    not change. *)
Theorem C32_layers_partial :
  forall eps D r s s' t rows ids pin crows cids pout rows2 ids2 pin2 crows2 cids2 pout2 feats feats2 cin F F2,
    workable eps D r rows ids pin crows cids pout -> workable eps D r rows2 ids2 pin2 crows2 cids2 pout2 ->
    moved_pair D s s' t rows ids crows cids F rows2 ids2 crows2 cids2 F2 ->
    given feats pin cin F -> given feats2 pin2 cin F2 ->
    let search := find_neighbors_tf GPU in let kde := compute_pdf_tf GPU in
    (forall cout mlps sizes act a w b fw layer bandwidth,
       mk_mcconv cin cout D mlps sizes act w b fw = Ok layer -> 0 < cout -> activation act a -> (0 < bandwidth)%R ->
       reordered s' (mcconv_call GPU eps search kde layer feats pin pout r None bandwidth false false)
                    (mcconv_call GPU eps search kde layer feats2 pin2 pout2 r None bandwidth false false)) /\
    (forall cout K deformable interpolation wt kernel_points w wo spherical layer influence,
       mk_kpconv cin cout K D deformable interpolation
         (Some (ttab [K; D] (fun idx => match idx with [k; d] => kernel_points k d | _ => 0%R end))) spherical w wo = Ok layer ->
       0 < cin -> 0 < K -> weighting interpolation wt ->
       exists o o2 state state2,
         kpconv_call GPU eps search layer feats pin pout r None influence false false = Ok (o, state) /\
         kpconv_call GPU eps search layer feats2 pin2 pout2 r None influence false false = Ok (o2, state2) /\
         reordered s' (Ok o) (Ok o2) /\ regularization_loss GPU layer state2 = regularization_loss GPU layer state) /\
    (forall cout hidden act a axis bias w w1 b1 w2 b2 bandwidth,
       2 <= length cids -> 0 < cin -> 0 < hidden -> activation act a -> (0 < bandwidth)%R ->
       let layer := mk_pointconv cin cout D hidden act axis bias w w1 b1 w2 b2 in
       reordered s' (pointconv_call GPU eps search kde layer feats pin pout r None bandwidth false false)
                    (pointconv_call GPU eps search kde layer feats2 pin2 pout2 r None bandwidth false false)) /\
    reordered s' (max_pooling GPU eps search feats pin pout (Some [r]) false false)
                 (max_pooling GPU eps search feats2 pin2 pout2 (Some [r]) false false) /\
    reordered s' (average_pooling GPU eps search feats pin pout (Some [r]) false false)
                 (average_pooling GPU eps search feats2 pin2 pout2 (Some [r]) false false).
Proof. exact C32_layers_partial_proof. Qed.
Print Assumptions C32_layers_partial.

(** C32 for the layers without neighbors: Conv1x1 acts on every point, global
    pooling on every batch element. *)
Theorem C32_pointwise :
  forall eps eps2 D s t rows ids B p rows2 ids2 p2 feats feats2 cin F F2,
    cloud GPU eps D rows ids B p -> cloud GPU eps2 D rows2 ids2 B p2 ->
    moved_copy D s t rows ids rows2 ids2 -> F2 = map (fun i => nth i F []) s ->
    given feats p cin F -> given feats2 p2 cin F2 ->
    (forall cout w b layer, mk_conv1x1 cin cout w b = Ok layer ->
       reordered s (conv1x1_call layer feats p false false) (conv1x1_call layer feats2 p2 false false)) /\
    forall dev, global_max_pooling dev feats2 p2 false = global_max_pooling dev feats p false /\
                global_average_pooling dev feats2 p2 false = global_average_pooling dev feats p false.
Proof. exact C32_pointwise_proof. Qed.
Print Assumptions C32_pointwise.

Theorem C33_translation_partial :
  forall eps D r t rows ids pin crows cids pout rows2 pin2 crows2 pout2 feats cin F,
    workable eps D r rows ids pin crows cids pout -> workable eps D r rows2 ids pin2 crows2 cids pout2 ->
    translated D (length ids) t rows rows2 -> translated D (length cids) t crows crows2 ->
    given feats pin cin F -> given feats pin2 cin F ->
    let search := find_neighbors_tf GPU in let kde := compute_pdf_tf GPU in
    (forall cout mlps sizes act a w b fw layer bandwidth,
       mk_mcconv cin cout D mlps sizes act w b fw = Ok layer -> 0 < cout -> activation act a -> (0 < bandwidth)%R ->
       mcconv_call GPU eps search kde layer feats pin2 pout2 r None bandwidth false false
       = mcconv_call GPU eps search kde layer feats pin pout r None bandwidth false false) /\
    (forall cout K deformable interpolation wt kernel_points w wo spherical layer influence,
       mk_kpconv cin cout K D deformable interpolation
         (Some (ttab [K; D] (fun idx => match idx with [k; d] => kernel_points k d | _ => 0%R end))) spherical w wo = Ok layer ->
       0 < cin -> 0 < K -> weighting interpolation wt ->
       exists o state state2,
         kpconv_call GPU eps search layer feats pin pout r None influence false false = Ok (o, state) /\
         kpconv_call GPU eps search layer feats pin2 pout2 r None influence false false = Ok (o, state2) /\
         regularization_loss GPU layer state2 = regularization_loss GPU layer state) /\
    (forall cout hidden act a axis bias w w1 b1 w2 b2 bandwidth,
       2 <= length cids -> 0 < cin -> 0 < hidden -> activation act a -> (0 < bandwidth)%R ->
       let layer := mk_pointconv cin cout D hidden act axis bias w w1 b1 w2 b2 in
       pointconv_call GPU eps search kde layer feats pin2 pout2 r None bandwidth false false
       = pointconv_call GPU eps search kde layer feats pin pout r None bandwidth false false) /\
    max_pooling GPU eps search feats pin2 pout2 (Some [r]) false false = max_pooling GPU eps search feats pin pout (Some [r]) false false /\
    average_pooling GPU eps search feats pin2 pout2 (Some [r]) false false
    = average_pooling GPU eps search feats pin pout (Some [r]) false false.
Proof. exact C33_translation_partial_proof. Qed.
Print Assumptions C33_translation_partial.

Example C32_layers_partial_ex :
  workable (1#1000) 2 1 exN_rows exN_ids (seg 2 exN_rows exN_ids 2) exN_centers exN_cids (seg 2 exN_centers exN_cids 2) /\
  workable (1#1000) 2 1 exM_rows exM_ids (seg 2 exM_rows exM_ids 2) exM_centers exM_cids (seg 2 exM_centers exM_cids 2) /\
  moved_pair 2 [4;1;0;2;5;3] [3;4;0;1;2] (fun d => nth d [1#4; -1#1] 0%Q) exN_rows exN_ids exN_centers exN_cids exN_F
    exM_rows exM_ids exM_centers exM_cids exM_F /\
  given (Feat 2 (inr exN_F)) (seg 2 exN_rows exN_ids 2) 2 exN_F /\
  given (Feat 2 (inr exM_F)) (seg 2 exM_rows exM_ids 2) 2 exM_F.
Proof. exact C32_layers_partial_ex_proof. Qed.

Example C32_pointwise_ex :
  cloud GPU (1#1000) 2 exN_rows exN_ids 2 (seg 2 exN_rows exN_ids 2) /\
  cloud GPU (1#1000) 2 exM_rows exM_ids 2 (seg 2 exM_rows exM_ids 2) /\
  moved_copy 2 [4;1;0;2;5;3] (fun d => nth d [1#4; -1#1] 0%Q) exN_rows exN_ids exM_rows exM_ids /\
  exM_F = map (fun i => nth i exN_F []) [4;1;0;2;5;3].
Proof. exact C32_pointwise_ex_proof. Qed.

Example C33_translation_partial_ex :
  workable (1#1000) 2 1 exT_rows exN_ids (seg 2 exT_rows exN_ids 2) exT_centers exN_cids (seg 2 exT_centers exN_cids 2) /\
  translated 2 (length exN_ids) (fun d => nth d [1#4; -1#1] 0%Q) exN_rows exT_rows /\
  translated 2 (length exN_cids) (fun d => nth d [1#4; -1#1] 0%Q) exN_centers exT_centers /\
  given (Feat 2 (inr exN_F)) (seg 2 exT_rows exN_ids 2) 2 exN_F.
Proof. exact C33_translation_partial_ex_proof. Qed.
