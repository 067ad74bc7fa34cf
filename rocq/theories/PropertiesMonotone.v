(** Comparisons of features under pooling (C84).
    Generated by tools/gen_props.py from MonotoneProofs.v: statements only. *)
From Coq Require Import String List Arith ZArith QArith Reals Qreals Lia Lra Bool Permutation.
From Verif Require Import Tensor TensorFacts Spec SpecText TextFacts PointCloud SpecCloud PointCloudFacts QFacts Grid SpecGrid GridFacts
  Neighbors SpecNeighbors NeighborFacts NeighborProofs Neighborhood NeighborhoodFacts NeighborhoodProofs
  Sampling SpecSampling SamplingFacts SamplingProofs Hierarchy SpecHierarchy HierarchyFacts Pdf SpecPdf PdfFacts PdfProofs
  RTensor RTensorFacts Layers SpecLayers LayerFacts LayerLink LayerProofs ConvProofs MoveProofs BlockFacts SpecLinear LinearProofs SpecMonotone.
From Verif Require Import MonotoneProofs.
Import ListNotations.
Local Open Scope nat_scope.

(** C84, local pooling: larger features give larger maxima and averages, and where
    a point is within the radius the average is not above the maximum. *)
Theorem C84_local_partial :
  forall eps D r rows ids pin crows cids pout radii feats1 feats2 C F1 F2 return_sorted return_padded,
    workable eps D r rows ids pin crows cids pout -> radii = [r] \/ radii = repeat r D ->
    given feats1 pin C F1 -> given feats2 pin C F2 -> not_above (length ids) C F1 F2 ->
    let search := find_neighbors_tf GPU in
    let largest := fun x => max_pooling GPU eps search x pin pout (Some radii) return_sorted return_padded in
    let average := fun x => average_pooling GPU eps search x pin pout (Some radii) return_sorted return_padded in
    let below := outputs_below pout return_sorted return_padded (length cids) C in
    below (fun _ => True) (largest feats1) (largest feats2) /\ below (fun _ => True) (average feats1) (average feats2) /\
    below (fun i => near_points D r rows ids crows cids i <> []) (average feats1) (largest feats1).
Proof. exact C84_local_partial_proof. Qed.
Print Assumptions C84_local_partial.

(** C84, global pooling, for every batch element with a point. *)
Theorem C84_global :
  forall dev eps D rows ids B p feats1 feats2 C F1 F2,
    cloud GPU eps D rows ids B p -> given feats1 p C F1 -> given feats2 p C F2 -> not_above (length ids) C F1 F2 ->
    exists mx1 mx2 av1 av2,
      global_max_pooling dev feats1 p false = Ok mx1 /\ global_max_pooling dev feats2 p false = Ok mx2 /\
      global_average_pooling dev feats1 p false = Ok av1 /\ global_average_pooling dev feats2 p false = Ok av2 /\
      forall b c, b < B -> c < C -> In b ids ->
        (tget mx1 [b; c] <= tget mx2 [b; c] /\ tget av1 [b; c] <= tget av2 [b; c] /\ tget av1 [b; c] <= tget mx1 [b; c])%R.
Proof. exact C84_global_proof. Qed.
Print Assumptions C84_global.

(** C84. Without a point within the radius the average, 0, is above the maximum,
    the lowest float. *)
Theorem C84_empty_refuted :
  exists T1 T2,
    near_points 2 1 exN_rows exN_ids exN_centers exN_cids 2 = [] /\
    average_pooling GPU (1#1000) (find_neighbors_tf GPU) (Feat 2 (inr exN_F)) (seg 2 exN_rows exN_ids 2) (seg 2 exN_centers exN_cids 2) (Some [1#1]) false false
    = Ok (Feat 2 (inr T1)) /\
    max_pooling GPU (1#1000) (find_neighbors_tf GPU) (Feat 2 (inr exN_F)) (seg 2 exN_rows exN_ids 2) (seg 2 exN_centers exN_cids 2) (Some [1#1]) false false
    = Ok (Feat 2 (inr T2)) /\
    (fval T2 2 0 < fval T1 2 0)%R.
Proof. exact C84_empty_refuted_proof. Qed.
Print Assumptions C84_empty_refuted.

Example C84_local_partial_ex :
  workable (1#1000) 2 1 exN_rows exN_ids (seg 2 exN_rows exN_ids 2) exN_centers exN_cids (seg 2 exN_centers exN_cids 2) /\
  given (Feat 2 (inr exN_F)) (seg 2 exN_rows exN_ids 2) 2 exN_F /\ given (Feat 2 (inr exP_F)) (seg 2 exN_rows exN_ids 2) 2 exP_F /\
  not_above (length exN_ids) 2 exN_F exP_F /\ near_points 2 1 exN_rows exN_ids exN_centers exN_cids 0 = [0].
Proof. exact C84_local_partial_ex_proof. Qed.

Example C84_global_ex :
  cloud GPU (1#1000) 2 exN_rows exN_ids 2 (seg 2 exN_rows exN_ids 2) /\
  given (Feat 2 (inr exN_F)) (seg 2 exN_rows exN_ids 2) 2 exN_F /\ given (Feat 2 (inr exP_F)) (seg 2 exN_rows exN_ids 2) 2 exP_F /\
  not_above (length exN_ids) 2 exN_F exP_F /\ In 0 exN_ids /\ In 1 exN_ids.
Proof. exact C84_global_ex_proof. Qed.
