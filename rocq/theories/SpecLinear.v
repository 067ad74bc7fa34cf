(** Specification vocabulary for sums of features (C83). *)
From Coq Require Import List Arith Reals.
From Verif Require Import Tensor PointCloud RTensor Layers SpecLayers.
Import ListNotations.

(** The features [F] of [n] points with [C] channels are [a] times the features
    [F1] plus [b] times the features [F2]. *)
Definition combined (n C : nat) (a b : R) (F1 F2 F : list (list R)) : Prop :=
  forall j c, j < n -> c < C -> fval F j c = (a * fval F1 j c + b * fval F2 j c)%R.

(** Three outputs with one row for each of the [n] points of [p], in the
    requested layout (C09): the third is [a] times the first plus [b] times the
    second plus the row [e] in every point. *)
Definition superposed (p : pc) (return_sorted return_padded : bool) (n C : nat) (a b : R) (e : nat -> R)
  (out1 out2 out : result feat) : Prop :=
  exists T1 T2 T, matrix n C T1 /\ matrix n C T2 /\ matrix n C T /\
    out1 = returned p return_sorted return_padded C T1 /\ out2 = returned p return_sorted return_padded C T2 /\
    out = returned p return_sorted return_padded C T /\
    forall i o, i < n -> o < C -> fval T i o = (a * fval T1 i o + b * fval T2 i o + e o)%R.
