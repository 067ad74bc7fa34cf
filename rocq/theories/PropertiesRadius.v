(** A larger radius loses no neighbor (C85).
    Generated by tools/gen_props.py from RadiusProofs.v: statements only. *)
From Coq Require Import String List Arith ZArith QArith Reals Qreals Lia Lra Bool Permutation.
From Verif Require Import Tensor TensorFacts Spec SpecText TextFacts PointCloud SpecCloud PointCloudFacts QFacts Grid SpecGrid GridFacts
  Neighbors SpecNeighbors NeighborFacts NeighborProofs Neighborhood NeighborhoodFacts NeighborhoodProofs
  Sampling SpecSampling SamplingFacts SamplingProofs Hierarchy SpecHierarchy HierarchyFacts Pdf SpecPdf PdfFacts PdfProofs
  RTensor RTensorFacts Layers SpecLayers LayerFacts LayerLink LayerProofs ConvProofs MoveProofs BlockFacts SpecLinear LinearProofs SpecMonotone MonotoneProofs.
From Verif Require Import RadiusProofs.
Import ListNotations.
Local Open Scope nat_scope.

(** C85, neighborhoods: every pair of a point and a center found with the radius
    [r1] is found with the radius [r2], if [r2] is not smaller. *)
Theorem C85_neighbors_partial :
  forall eps D rows ids B cs1 g1 cs2 g2 ceps crows cids CB cp radii1 radii2 max_neighbors,
    usable eps D rows ids B cs1 g1 -> usable eps D rows ids B cs2 g2 -> cloud GPU ceps D crows cids CB cp ->
    cids <> [] -> Forall (fun b => b < B) cids -> radii_match D radii1 cs1 -> radii_match D radii2 cs2 ->
    let r1 := nth 0 (all_dims D radii1) 0%Q in
    let r2 := nth 0 (all_dims D radii2) 0%Q in
    (0 <= r1)%Q -> (r1 <= r2)%Q ->
    exists n1 n2,
      snd (mk_nbh (find_neighbors_tf GPU) g1 radii1 (Some cp) max_neighbors) = Ok n1 /\
      snd (mk_nbh (find_neighbors_tf GPU) g2 radii2 (Some cp) max_neighbors) = Ok n2 /\
      NoDup (norig n1) /\ NoDup (norig n2) /\ incl (norig n1) (norig n2) /\ length (norig n1) <= length (norig n2).
Proof. exact C85_neighbors_partial_proof. Qed.
Print Assumptions C85_neighbors_partial.

(** C85, max pooling: with a larger radius no maximum is smaller. *)
Theorem C85_pooling_partial :
  forall eps D r1 r2 rows ids pin crows cids pout feats C F return_sorted return_padded,
    workable eps D r1 rows ids pin crows cids pout -> workable eps D r2 rows ids pin crows cids pout -> (r1 <= r2)%Q ->
    given feats pin C F -> not_above (length ids) C F F ->
    let largest := fun r => max_pooling GPU eps (find_neighbors_tf GPU) feats pin pout (Some [r]) return_sorted return_padded in
    outputs_below pout return_sorted return_padded (length cids) C (fun _ => True) (largest r1) (largest r2).
Proof. exact C85_pooling_partial_proof. Qed.
Print Assumptions C85_pooling_partial.

(** C85. An average can go down with a larger radius: in the point 1 it is 3 with
    the radius 1/4 and 2 with the radius 1. *)
Theorem C85_average_refuted :
  exists T1 T2,
    let average := fun r => average_pooling GPU (1#1000) (find_neighbors_tf GPU) (Feat 2 (inr exN_F)) (seg 2 exN_rows exN_ids 2) (seg 2 exN_rows exN_ids 2)
      (Some [r]) false false in
    average (1#4) = Ok (Feat 2 (inr T1)) /\ average (1#1) = Ok (Feat 2 (inr T2)) /\ fval T1 1 0 = 3%R /\ fval T2 1 0 = 2%R.
Proof. exact C85_average_refuted_proof. Qed.
Print Assumptions C85_average_refuted.

Example C85_pooling_partial_ex :
  workable (1#1000) 2 (1#4) exN_rows exN_ids (seg 2 exN_rows exN_ids 2) exN_rows exN_ids (seg 2 exN_rows exN_ids 2) /\
  workable (1#1000) 2 1 exN_rows exN_ids (seg 2 exN_rows exN_ids 2) exN_rows exN_ids (seg 2 exN_rows exN_ids 2) /\
  given (Feat 2 (inr exN_F)) (seg 2 exN_rows exN_ids 2) 2 exN_F /\ not_above (length exN_ids) 2 exN_F exN_F /\
  near_points 2 (1#4) exN_rows exN_ids exN_rows exN_ids 0 = [0] /\ near_points 2 1 exN_rows exN_ids exN_rows exN_ids 0 = [0; 1].
Proof. exact C85_pooling_partial_ex_proof. Qed.

Example C85_neighbors_partial_ex :
  exists g1 n1 g2 n2,
    usable (1#1000) 2 exN_rows exN_ids 2 [1#4] g1 /\ radii_match 2 [1#4] [1#4] /\
    usable (1#1000) 2 exN_rows exN_ids 2 [1#1] g2 /\ radii_match 2 [1#1] [1#1] /\
    snd (mk_nbh (find_neighbors_tf GPU) g1 [1#4] (Some (seg 2 exN_rows exN_ids 2)) 0) = Ok n1 /\
    snd (mk_nbh (find_neighbors_tf GPU) g2 [1#1] (Some (seg 2 exN_rows exN_ids 2)) 0) = Ok n2 /\
    length (norig n1) = 6 /\ length (norig n2) = 10.
Proof. exact C85_neighbors_partial_ex_proof. Qed.
