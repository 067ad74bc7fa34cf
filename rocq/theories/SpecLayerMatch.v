(** Specification vocabulary for the outputs of a layer for the same cloud in
    two batches. *)
From Coq Require Import List Arith Reals.
From Verif Require Import Tensor PointCloud Spec SpecGrid SpecLayers SpecMatch Layers.
Import ListNotations.
Local Open Scope nat_scope.

(** Two results with one row of [C] features for each of [n] respectively [n2]
    output points, in which paired points have the same rows. *)
Definition outputs_match (C n n2 : nat) (qs : list (nat * nat)) (o o2 : feat) : Prop :=
  exists T T2, o = Feat C (inr T) /\ o2 = Feat C (inr T2) /\ matrix n C T /\ matrix n2 C T2 /\ rows_match qs T T2.

(** The same with the rows of the first result multiplied by [k]. *)
Definition outputs_scaled (k : R) (C n n2 : nat) (qs : list (nat * nat)) (o o2 : feat) : Prop :=
  exists T T2, o = Feat C (inr T) /\ o2 = Feat C (inr T2) /\ matrix n C T /\ matrix n2 C T2 /\
    rows_match qs (map (map (Rmult k)) T) T2.
