(** The point-wise convolution in float32 (C79).
    Generated by tools/gen_props.py from FloatConvProofs.v: statements only. *)
From Coq Require Import String List Arith ZArith QArith Qreals Reals Lia Lra Bool Permutation.
From Flocq Require Import Core Relative.
From Verif Require Import Tensor TensorFacts Spec SpecText TextFacts PointCloud SpecCloud PointCloudFacts QFacts Grid SpecGrid GridFacts Neighbors SpecNeighbors NeighborFacts NeighborProofs
  SamplingFacts SamplingProofs Pdf SpecPdf PdfFacts RTensor RTensorFacts Layers SpecLayers LayerFacts LayerLink LayerProofs ConvProofs
  Float FloatFacts FloatConv.
From Verif Require Import FloatConvProofs.
Import ListNotations.
Local Open Scope nat_scope.

(** C79, partial. The point-wise convolution in float32, for all clouds, features,
    weights and biases with fewer than 2^22 input features, every order of the
    additions, with and without fused operations: row i of the output holds the
    linear combinations of the features of point i up to the rounding error, which
    is at most (C_in + 1) / 2^23 times the sum of the magnitudes. Partial: rows with
    equal features can get different values (C79_rows_refuted). *)
Theorem C79_conv1x1_partial :
  forall p feats cin cout F w b layer dot return_sorted return_padded,
    mk_conv1x1 cin cout w b = Ok layer -> given feats p cin F -> dots32 dot -> (Z.of_nat cin < 2 ^ 22)%Z ->
    exists out,
      conv1x1_call32 dot layer feats p return_sorted return_padded
        = returned p return_sorted return_padded cout (table (length (pts p)) cout out) /\
      forall i o, i < length (pts p) -> o < cout ->
        let exact := (sum_over (seq 0 cin) (fun c => fval F i c * w [c; o]) + b [0%nat; o])%R in
        let size := (sum_over (seq 0 cin) (fun c => Rabs (fval F i c * w [c; o])) + Rabs (b [0%nat; o]))%R in
        (Rabs (out i o - exact) <= (INR cin + 1) * (size / 8388608 + / 2 ^ 148))%R.
Proof. exact C79_conv1x1_partial_proof. Qed.
Print Assumptions C79_conv1x1_partial.

Theorem C79_rows_refuted :
  exists p feats F w b layer dot out,
    cloud GPU 0 2 [[0; 0]; [1; 1]]%Q [0; 0] 1 p /\ given feats p 3 F /\ nth 0 F [] = nth 1 F [] /\
    mk_conv1x1 3 1 w b = Ok layer /\ dots32 dot /\
    conv1x1_call32 dot layer feats p false false = Ok (Feat 1 (inr out)) /\ length out = 2 /\ fval out 0 0 <> fval out 1 0.
Proof. exact C79_rows_refuted_proof. Qed.
Print Assumptions C79_rows_refuted.

(** * Concrete cases *)
Example C79_conv1x1_partial_ex :
  exists layer, mk_conv1x1 2 3 (fun idx => INR (hd 0 idx)) (fun _ => 1%R) = Ok layer /\
    given (Feat 2 (inr exN_F)) (seg 2 exN_rows exN_ids 2) 2 exN_F /\ dots32 ex79_dot /\
    sum_over (seq 0 2) (fun c => fval exN_F 2 c * INR c)%R = 6%R.
Proof. exact C79_conv1x1_partial_ex_proof. Qed.

Example C79_rows_refuted_ex : dots32 (fun _ _ => tree1) /\ dots32 (fun _ _ => tree2).
Proof. exact C79_rows_refuted_ex_proof. Qed.
