(** Reordering and translation in every layout (C32, C33).
    Generated by tools/gen_props.py from MoveLayoutProofs.v: statements only. *)
From Coq Require Import String List Arith ZArith QArith Reals Qreals Lia Lra Bool Permutation.
From Verif Require Import Tensor TensorFacts Spec SpecText TextFacts PointCloud SpecCloud PointCloudFacts QFacts Grid SpecGrid GridFacts
  Neighbors SpecNeighbors NeighborFacts NeighborProofs Neighborhood NeighborhoodFacts NeighborhoodProofs
  Sampling SpecSampling SamplingFacts SamplingProofs Hierarchy SpecHierarchy HierarchyFacts Pdf SpecPdf PdfFacts PdfProofs
  RTensor RTensorFacts Layers SpecLayers LayerFacts LayerLink LayerProofs ConvProofs MoveProofs SpecMoveLayout.
From Verif Require Import MoveLayoutProofs.
Import ListNotations.
Local Open Scope nat_scope.

(** C32, for all layers with neighbors and every layout of the output: if the
    input points (with their features) are reordered by [s], the output points by
    [s'], and both clouds are translated by the same vector, the rows of the output
    are those of the original output in the order [s'], returned in the layout of
    the reordered output cloud; the regularisation loss of KPConv does not change. *)
Theorem C32_layouts_partial :
  forall eps D r s s' t rows ids pin crows cids pout rows2 ids2 pin2 crows2 cids2 pout2 feats feats2 cin F F2 return_sorted return_padded,
    workable eps D r rows ids pin crows cids pout -> workable eps D r rows2 ids2 pin2 crows2 cids2 pout2 ->
    moved_pair D s s' t rows ids crows cids F rows2 ids2 crows2 cids2 F2 ->
    given feats pin cin F -> given feats2 pin2 cin F2 ->
    let search := find_neighbors_tf GPU in let kde := compute_pdf_tf GPU in
    (forall cout mlps sizes act a w b fw layer bandwidth,
       mk_mcconv cin cout D mlps sizes act w b fw = Ok layer -> 0 < cout -> activation act a -> (0 < bandwidth)%R ->
       reordered_layout s' pout pout2 return_sorted return_padded (mcconv_call GPU eps search kde layer feats pin pout r None bandwidth return_sorted return_padded)
                    (mcconv_call GPU eps search kde layer feats2 pin2 pout2 r None bandwidth return_sorted return_padded)) /\
    (forall cout K deformable interpolation wt kernel_points w wo spherical layer influence,
       mk_kpconv cin cout K D deformable interpolation
         (Some (ttab [K; D] (fun idx => match idx with [k; d] => kernel_points k d | _ => 0%R end))) spherical w wo = Ok layer ->
       0 < cin -> 0 < K -> weighting interpolation wt ->
       exists out out2 state state2,
         kpconv_call GPU eps search layer feats pin pout r None influence return_sorted return_padded = (o <- out ;; Ok (o, state)) /\
         kpconv_call GPU eps search layer feats2 pin2 pout2 r None influence return_sorted return_padded = (o <- out2 ;; Ok (o, state2)) /\
         reordered_layout s' pout pout2 return_sorted return_padded out out2 /\ regularization_loss GPU layer state2 = regularization_loss GPU layer state) /\
    (forall cout hidden act a axis bias w w1 b1 w2 b2 bandwidth,
       2 <= length cids -> 0 < cin -> 0 < hidden -> activation act a -> (0 < bandwidth)%R ->
       let layer := mk_pointconv cin cout D hidden act axis bias w w1 b1 w2 b2 in
       reordered_layout s' pout pout2 return_sorted return_padded (pointconv_call GPU eps search kde layer feats pin pout r None bandwidth return_sorted return_padded)
                    (pointconv_call GPU eps search kde layer feats2 pin2 pout2 r None bandwidth return_sorted return_padded)) /\
    reordered_layout s' pout pout2 return_sorted return_padded (max_pooling GPU eps search feats pin pout (Some [r]) return_sorted return_padded)
                 (max_pooling GPU eps search feats2 pin2 pout2 (Some [r]) return_sorted return_padded) /\
    reordered_layout s' pout pout2 return_sorted return_padded (average_pooling GPU eps search feats pin pout (Some [r]) return_sorted return_padded)
                 (average_pooling GPU eps search feats2 pin2 pout2 (Some [r]) return_sorted return_padded).
Proof. exact C32_layouts_partial_proof. Qed.
Print Assumptions C32_layouts_partial.

(** C32, order of the input. Reordering the input points together with their
    features changes neither the output, in whatever layout, nor the regularisation
    loss of KPConv. *)
Theorem C32_input_order_partial :
  forall eps D r s rows ids pin crows cids pout rows2 ids2 pin2 feats feats2 cin F F2 return_sorted return_padded,
    workable eps D r rows ids pin crows cids pout -> workable eps D r rows2 ids2 pin2 crows cids pout ->
    moved_copy D s (fun _ => 0%Q) rows ids rows2 ids2 -> F2 = map (fun i => nth i F []) s ->
    given feats pin cin F -> given feats2 pin2 cin F2 ->
    let search := find_neighbors_tf GPU in let kde := compute_pdf_tf GPU in
    (forall cout mlps sizes act a w b fw layer bandwidth,
       mk_mcconv cin cout D mlps sizes act w b fw = Ok layer -> 0 < cout -> activation act a -> (0 < bandwidth)%R ->
       mcconv_call GPU eps search kde layer feats2 pin2 pout r None bandwidth return_sorted return_padded =
       mcconv_call GPU eps search kde layer feats pin pout r None bandwidth return_sorted return_padded) /\
    (forall cout K deformable interpolation wt kernel_points w wo spherical layer influence,
       mk_kpconv cin cout K D deformable interpolation
         (Some (ttab [K; D] (fun idx => match idx with [k; d] => kernel_points k d | _ => 0%R end))) spherical w wo = Ok layer ->
       0 < cin -> 0 < K -> weighting interpolation wt ->
       exists out state state2,
         kpconv_call GPU eps search layer feats pin pout r None influence return_sorted return_padded = (o <- out ;; Ok (o, state)) /\
         kpconv_call GPU eps search layer feats2 pin2 pout r None influence return_sorted return_padded = (o <- out ;; Ok (o, state2)) /\
         regularization_loss GPU layer state2 = regularization_loss GPU layer state) /\
    (forall cout hidden act a axis bias w w1 b1 w2 b2 bandwidth,
       2 <= length cids -> 0 < cin -> 0 < hidden -> activation act a -> (0 < bandwidth)%R ->
       let layer := mk_pointconv cin cout D hidden act axis bias w w1 b1 w2 b2 in
       pointconv_call GPU eps search kde layer feats2 pin2 pout r None bandwidth return_sorted return_padded =
       pointconv_call GPU eps search kde layer feats pin pout r None bandwidth return_sorted return_padded) /\
    max_pooling GPU eps search feats2 pin2 pout (Some [r]) return_sorted return_padded =
    max_pooling GPU eps search feats pin pout (Some [r]) return_sorted return_padded /\
    average_pooling GPU eps search feats2 pin2 pout (Some [r]) return_sorted return_padded =
    average_pooling GPU eps search feats pin pout (Some [r]) return_sorted return_padded.
Proof. exact C32_input_order_partial_proof. Qed.
Print Assumptions C32_input_order_partial.

(** C33, for every layout of the output: translating the input and the output
    points by the same vector changes neither the output of a layer, sorted, padded
    or in the order of the points, nor the regularisation loss of KPConv. *)
Theorem C33_layouts_partial :
  forall eps D r t rows ids pin crows cids pout rows2 pin2 crows2 pout2 feats cin F return_sorted return_padded,
    workable eps D r rows ids pin crows cids pout -> workable eps D r rows2 ids pin2 crows2 cids pout2 ->
    translated D (length ids) t rows rows2 -> translated D (length cids) t crows crows2 ->
    same_layout pout pout2 -> given feats pin cin F -> given feats pin2 cin F ->
    let search := find_neighbors_tf GPU in let kde := compute_pdf_tf GPU in
    (forall cout mlps sizes act a w b fw layer bandwidth,
       mk_mcconv cin cout D mlps sizes act w b fw = Ok layer -> 0 < cout -> activation act a -> (0 < bandwidth)%R ->
       mcconv_call GPU eps search kde layer feats pin2 pout2 r None bandwidth return_sorted return_padded
       = mcconv_call GPU eps search kde layer feats pin pout r None bandwidth return_sorted return_padded) /\
    (forall cout K deformable interpolation wt kernel_points w wo spherical layer influence,
       mk_kpconv cin cout K D deformable interpolation
         (Some (ttab [K; D] (fun idx => match idx with [k; d] => kernel_points k d | _ => 0%R end))) spherical w wo = Ok layer ->
       0 < cin -> 0 < K -> weighting interpolation wt ->
       exists out state state2,
         kpconv_call GPU eps search layer feats pin pout r None influence return_sorted return_padded = (o <- out ;; Ok (o, state)) /\
         kpconv_call GPU eps search layer feats pin2 pout2 r None influence return_sorted return_padded = (o <- out ;; Ok (o, state2)) /\
         regularization_loss GPU layer state2 = regularization_loss GPU layer state) /\
    (forall cout hidden act a axis bias w w1 b1 w2 b2 bandwidth,
       2 <= length cids -> 0 < cin -> 0 < hidden -> activation act a -> (0 < bandwidth)%R ->
       let layer := mk_pointconv cin cout D hidden act axis bias w w1 b1 w2 b2 in
       pointconv_call GPU eps search kde layer feats pin2 pout2 r None bandwidth return_sorted return_padded
       = pointconv_call GPU eps search kde layer feats pin pout r None bandwidth return_sorted return_padded) /\
    max_pooling GPU eps search feats pin2 pout2 (Some [r]) return_sorted return_padded
    = max_pooling GPU eps search feats pin pout (Some [r]) return_sorted return_padded /\
    average_pooling GPU eps search feats pin2 pout2 (Some [r]) return_sorted return_padded
    = average_pooling GPU eps search feats pin pout (Some [r]) return_sorted return_padded.
Proof. exact C33_layouts_partial_proof. Qed.
Print Assumptions C33_layouts_partial.

(** As for C32_layers_partial, with the output sorted: both layouts exist. *)
Example C32_layouts_partial_ex :
  workable (1#1000) 2 1 exN_rows exN_ids (seg 2 exN_rows exN_ids 2) exN_centers exN_cids (seg 2 exN_centers exN_cids 2) /\
  workable (1#1000) 2 1 exM_rows exM_ids (seg 2 exM_rows exM_ids 2) exM_centers exM_cids (seg 2 exM_centers exM_cids 2) /\
  moved_pair 2 [4;1;0;2;5;3] [3;4;0;1;2] (fun d => nth d [1#4; -1#1] 0%Q) exN_rows exN_ids exN_centers exN_cids exN_F
    exM_rows exM_ids exM_centers exM_cids exM_F /\
  forall T, length T = 5 -> returned (seg 2 exN_centers exN_cids 2) true false 1 T = Ok (Feat 1 (inr T)).
Proof. exact C32_layouts_partial_ex_proof. Qed.

(** The six points in another order, the centers unchanged. *)
Example C32_input_order_partial_ex :
  workable (1#1000) 2 1 exN_rows exN_ids (seg 2 exN_rows exN_ids 2) exN_centers exN_cids (seg 2 exN_centers exN_cids 2) /\
  workable (1#1000) 2 1 exO_rows exM_ids (seg 2 exO_rows exM_ids 2) exN_centers exN_cids (seg 2 exN_centers exN_cids 2) /\
  moved_copy 2 [4;1;0;2;5;3] (fun _ => 0%Q) exN_rows exN_ids exO_rows exM_ids /\
  exM_F = map (fun i => nth i exN_F []) [4;1;0;2;5;3] /\
  given (Feat 2 (inr exN_F)) (seg 2 exN_rows exN_ids 2) 2 exN_F /\
  given (Feat 2 (inr exM_F)) (seg 2 exO_rows exM_ids 2) 2 exM_F.
Proof. exact C32_input_order_partial_ex_proof. Qed.

(** Six points in two batch elements and five centers, moved by (1/4, -1). *)
Example C33_layouts_partial_ex :
  workable (1#1000) 2 1 exN_rows exN_ids (seg 2 exN_rows exN_ids 2) exN_centers exN_cids (seg 2 exN_centers exN_cids 2) /\
  workable (1#1000) 2 1 exT_rows exN_ids (seg 2 exT_rows exN_ids 2) exT_centers exN_cids (seg 2 exT_centers exN_cids 2) /\
  translated 2 (length exN_ids) (fun d => nth d [1#4; -1#1] 0%Q) exN_rows exT_rows /\
  translated 2 (length exN_cids) (fun d => nth d [1#4; -1#1] 0%Q) exN_centers exT_centers /\
  same_layout (seg 2 exN_centers exN_cids 2) (seg 2 exT_centers exN_cids 2) /\
  given (Feat 2 (inr exN_F)) (seg 2 exN_rows exN_ids 2) 2 exN_F /\
  given (Feat 2 (inr exN_F)) (seg 2 exT_rows exN_ids 2) 2 exN_F.
Proof. exact C33_layouts_partial_ex_proof. Qed.
