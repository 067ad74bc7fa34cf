(** Regularization loss of a batch (C71)
    Generated by tools/gen_props.py from LossProofs.v: statements only. *)
From Coq Require Import String List Arith ZArith NArith QArith Reals Qreals Lia Lra Bool Permutation.
From Verif Require Import GpuBasis GpuPdf Cuda GpuGrid Tensor TensorFacts Spec SpecText TextFacts PointCloud SpecCloud PointCloudFacts QFacts Grid SpecGrid GridFacts
  Neighbors SpecNeighbors NeighborFacts NeighborProofs Neighborhood NeighborhoodFacts NeighborhoodProofs
  Sampling SpecSampling SamplingFacts SamplingProofs Hierarchy SpecHierarchy HierarchyFacts Pdf SpecPdf PdfFacts PdfProofs
  RTensor RTensorFacts Layers SpecLayers LayerFacts LayerLink LayerProofs ConvProofs MoveProofs BlockFacts
  SpecMatch MatchFacts SpecLayerMatch GpuBasisFacts GpuPdfProofs CudaLayers SpecCudaLayers CudaLayerProofs LayerMatchProofs SpecScale ScaleFacts ScaleProofs SpecLoss.
From Verif Require Import LossProofs.
Import ListNotations.
Local Open Scope nat_scope.

(** C71. The regularization loss of a deformable KPConv layer for a batch is the
    sum, over the elements that have output points, of the losses for these clouds
    alone. The cloud of element [e] may be given in any order, translated, or
    multiplied by a positive number together with the radius and the influence
    distance. The losses are the same with the fallback and with the CUDA
    operations. *)
Theorem C71_loss :
  forall D r cin cout K interpolation wt kernel_points w wo spherical layer influence b
         (s : nat -> Q) (t : nat -> nat -> Q) (c : nat -> conv_input),
    mk_kpconv cin cout K D true interpolation
      (Some (ttab [K; D] (fun idx => match idx with [k; d] => kernel_points k d | _ => 0%R end))) spherical w wo = Ok layer ->
    0 < cin -> 0 < K -> weighting interpolation wt -> (0 < r)%Q ->
    (forall e, In e (i_cids b) -> (0 < s e)%Q /\ only_element D (s e) (t e) e b (c e)) ->
    let cuda_sizes := (cin < 8 \/ cin mod 8 = 0) /\ K <= 64 in
    exists losses : nat -> R,
      let total := sum_over (nodup Nat.eq_dec (i_cids b)) losses in
      (fallback_loss layer D r influence cin b total /\
       (cuda_sizes -> cuda_loss layer D r influence cin b total)) /\
      forall e, In e (i_cids b) ->
        let influence_e := option_map (Rmult (Q2R (s e))) influence in
        fallback_loss layer D (s e * r) influence_e cin (c e) (losses e) /\
        (cuda_sizes -> cuda_loss layer D (s e * r) influence_e cin (c e) (losses e)).
Proof. exact C71_loss_proof. Qed.
Print Assumptions C71_loss.

Example C71_loss_ex :
  exists layer loss0 loss1,
    mk_kpconv 2 4 9 2 true "linear" (Some (ttab [9; 2] (fun idx => match idx with [k; d] => (fun k d => INR (k + d)) k d | _ => 0%R end)))
      (fun _ => Err ValueError) (fun idx => INR (hd 0 idx)) (fun idx => INR (hd 0 idx)) = Ok layer /\
    (exists o state,
       kpconv_call GPU (1#1000) (find_neighbors_tf GPU) layer (Feat 2 (inr exN_F)) (seg 2 exN_rows exN_ids 2) (seg 2 exN_rows exN_ids 2) 1 None None false false = Ok (o, state) /\
       regularization_loss GPU layer state = Ok (loss0 + loss1)%R) /\
    (exists o state,
       kpconv_call GPU (1#1000) (find_neighbors_tf GPU) layer (Feat 2 (inr ex71_F1)) (seg 2 ex71_first [0;0;0;0] 1) (seg 2 ex71_first [0;0;0;0] 1) 1 None None false false = Ok (o, state) /\
       regularization_loss GPU layer state = Ok loss0) /\
    (exists o state,
       kpconv_call GPU (1#1000) (find_neighbors_tf GPU) layer (Feat 2 (inr ex71_F2)) (seg 2 ex71_second [0;0] 1) (seg 2 ex71_second [0;0] 1) (2#1) None None false false = Ok (o, state) /\
       regularization_loss GPU layer state = Ok loss1).
Proof. exact C71_loss_ex_proof. Qed.
