(** Specification vocabulary for the independence of batch elements. *)
From Coq Require Import List Arith Reals.
From Verif Require Import Tensor PointCloud Spec Layers.
Import ListNotations.
Local Open Scope nat_scope.

(** Element [b] of one batch of rows is the same as element [b2] of another. *)
Definition same_element {A} (b : nat) (rows : list A) (ids : list nat) (b2 : nat) (rows2 : list A) (ids2 : list nat) : Prop :=
  element b rows ids = element b2 rows2 ids2.

(** Both layer calls return a row of [C] features per output point ([cids],
    [cids2] being the batch elements of the output points), and the rows of
    element [b] in the first result are those of [b2] in the second. *)
Definition same_output (C b : nat) (cids : list nat) (out : result feat) (b2 : nat) (cids2 : list nat) (out2 : result feat) : Prop :=
  exists T T2, out = Ok (Feat C (inr T)) /\ out2 = Ok (Feat C (inr T2)) /\
    length T = length cids /\ length T2 = length cids2 /\ same_element b T cids b2 T2 cids2.
