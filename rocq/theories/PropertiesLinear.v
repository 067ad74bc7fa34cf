(** Sums of features (C83).
    Generated by tools/gen_props.py from LinearProofs.v: statements only. *)
From Coq Require Import String List Arith ZArith QArith Reals Qreals Lia Lra Bool Permutation.
From Verif Require Import Tensor TensorFacts Spec SpecText TextFacts PointCloud SpecCloud PointCloudFacts QFacts Grid SpecGrid GridFacts
  Neighbors SpecNeighbors NeighborFacts NeighborProofs Neighborhood NeighborhoodFacts NeighborhoodProofs
  Sampling SpecSampling SamplingFacts SamplingProofs Hierarchy SpecHierarchy HierarchyFacts Pdf SpecPdf PdfFacts PdfProofs
  RTensor RTensorFacts Layers SpecLayers LayerFacts LayerLink LayerProofs ConvProofs MoveProofs BlockFacts SpecLinear.
From Verif Require Import LinearProofs.
Import ListNotations.
Local Open Scope nat_scope.

(** C83. If the features are a times some features plus b times other ones, the
    output of the convolutions with fixed kernels and of average pooling is a times
    the first output plus b times the second, in every layout. *)
Theorem C83_superposition_partial :
  forall eps D r rows ids pin crows cids pout cin a b feats1 feats2 feats F1 F2 F return_sorted return_padded,
    workable eps D r rows ids pin crows cids pout ->
    given feats1 pin cin F1 -> given feats2 pin cin F2 -> given feats pin cin F -> combined (length ids) cin a b F1 F2 F ->
    let search := find_neighbors_tf GPU in let kde := compute_pdf_tf GPU in
    let sums := fun C (call : feat -> result feat) =>
      superposed pout return_sorted return_padded (length cids) C a b (fun _ => 0%R) (call feats1) (call feats2) (call feats) in
    (forall cout mlps sizes act f w bs fw layer bandwidth,
       mk_mcconv cin cout D mlps sizes act w bs fw = Ok layer -> 0 < cout -> activation act f -> (0 < bandwidth)%R ->
       sums cout (fun x => mcconv_call GPU eps search kde layer x pin pout r None bandwidth return_sorted return_padded)) /\
    (forall cout K interpolation wt kernel_points w wo spherical layer influence,
       mk_kpconv cin cout K D false interpolation
         (Some (ttab [K; D] (fun idx => match idx with [k; d] => kernel_points k d | _ => 0%R end))) spherical w wo = Ok layer ->
       0 < cin -> 0 < K -> weighting interpolation wt ->
       sums cout (fun x => o <- kpconv_call GPU eps search layer x pin pout r None influence return_sorted return_padded ;; Ok (fst o))) /\
    (forall cout hidden act f axis bias w w1 b1 w2 b2 bandwidth,
       2 <= length cids -> 0 < cin -> 0 < hidden -> activation act f -> (0 < bandwidth)%R ->
       sums cout (fun x => pointconv_call GPU eps search kde (mk_pointconv cin cout D hidden act axis bias w w1 b1 w2 b2) x pin pout r None
                             bandwidth return_sorted return_padded)) /\
    sums cin (fun x => average_pooling GPU eps search x pin pout (Some [r]) return_sorted return_padded).
Proof. exact C83_superposition_partial_proof. Qed.
Print Assumptions C83_superposition_partial.

(** C83, Conv1x1: the same up to the bias, which is added once. *)
Theorem C83_conv1x1 :
  forall p cin cout w bias layer a b feats1 feats2 feats F1 F2 F return_sorted return_padded,
    mk_conv1x1 cin cout w bias = Ok layer -> given feats1 p cin F1 -> given feats2 p cin F2 -> given feats p cin F ->
    combined (length (pts p)) cin a b F1 F2 F ->
    superposed p return_sorted return_padded (length (pts p)) cout a b (fun o => (1 - a - b) * bias [0%nat; o])%R
      (conv1x1_call layer feats1 p return_sorted return_padded) (conv1x1_call layer feats2 p return_sorted return_padded)
      (conv1x1_call layer feats p return_sorted return_padded).
Proof. exact C83_conv1x1_proof. Qed.
Print Assumptions C83_conv1x1.

(** C83. A deformable KPConv is not linear: for one point and one kernel point in
    the middle, twice the features give 0 instead of twice the output 1/4. *)
Theorem C83_deformable_refuted :
  exists layer state state2,
    mk_kpconv 1 1 1 2 true "linear" (Some (ttab [1; 2] (fun idx => match idx with [k; d] => (fun _ _ => 0%R) k d | _ => 0%R end)))
      (fun _ => Err ValueError) (fun _ => 1%R) (fun idx => match idx with [_; 0] => 1%R | _ => 0%R end) = Ok layer /\
    let cloud := seg 2 [[0#1;0#1]] [0] 1 in
    workable (1#1000) 2 1 [[0#1;0#1]] [0] cloud [[0#1;0#1]] [0] cloud /\
    kpconv_call GPU (1#1000) (find_neighbors_tf GPU) layer (Feat 1 (inr [[1 / 2]%R])) cloud cloud 1 None None false false
    = Ok (Feat 1 (inr [[1 / 4]%R]), state) /\
    kpconv_call GPU (1#1000) (find_neighbors_tf GPU) layer (Feat 1 (inr [[1]%R])) cloud cloud 1 None None false false
    = Ok (Feat 1 (inr [[0]%R]), state2).
Proof. exact C83_deformable_refuted_proof. Qed.
Print Assumptions C83_deformable_refuted.

Example C83_superposition_partial_ex :
  workable (1#1000) 2 1 exN_rows exN_ids (seg 2 exN_rows exN_ids 2) exN_centers exN_cids (seg 2 exN_centers exN_cids 2) /\
  given (Feat 2 (inr exN_F)) (seg 2 exN_rows exN_ids 2) 2 exN_F /\
  given (Feat 2 (inr exL_swap)) (seg 2 exN_rows exN_ids 2) 2 exL_swap /\
  given (Feat 2 (inr exL_F)) (seg 2 exN_rows exN_ids 2) 2 exL_F /\
  combined (length exN_ids) 2 2 (-1) exN_F exL_swap exL_F /\ fval exL_F 0 0 <> fval exN_F 0 0.
Proof. exact C83_superposition_partial_ex_proof. Qed.

Example C83_conv1x1_ex :
  exists layer, mk_conv1x1 2 3 (fun idx => INR (hd 0 idx)) (fun _ => 1%R) = Ok layer /\
    given (Feat 2 (inr exN_F)) (seg 2 exN_rows exN_ids 2) 2 exN_F /\
    given (Feat 2 (inr exL_swap)) (seg 2 exN_rows exN_ids 2) 2 exL_swap /\
    given (Feat 2 (inr exL_F)) (seg 2 exN_rows exN_ids 2) 2 exL_F /\
    combined (length (pts (seg 2 exN_rows exN_ids 2))) 2 2 (-1) exN_F exL_swap exL_F.
Proof. exact C83_conv1x1_ex_proof. Qed.
