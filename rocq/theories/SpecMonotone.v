(** Specification vocabulary for comparisons of features (C84). *)
From Coq Require Import List Arith QArith Reals Qreals.
From Verif Require Import Tensor PointCloud Spec SpecCloud Grid Neighbors Sampling RTensor Layers SpecLayers.
Import ListNotations.

(** The features [F1] of [n] points with [C] channels are floats and not larger
    than the features [F2]. *)
Definition not_above (n C : nat) (F1 F2 : list (list R)) : Prop :=
  forall j c, (j < n)%nat -> (c < C)%nat -> (- Q2R flt_max <= fval F1 j c <= fval F2 j c)%R.

(** Two outputs with a row for each of the [n] points of [p], in the requested
    layout (C09): in the points [i] with [ok i] the first is not above the second. *)
Definition outputs_below (p : pc) (return_sorted return_padded : bool) (n C : nat) (ok : nat -> Prop) (out1 out2 : result feat) : Prop :=
  exists T1 T2, matrix n C T1 /\ matrix n C T2 /\
    out1 = returned p return_sorted return_padded C T1 /\ out2 = returned p return_sorted return_padded C T2 /\
    forall i c, (i < n)%nat -> (c < C)%nat -> ok i -> (fval T1 i c <= fval T2 i c)%R.
