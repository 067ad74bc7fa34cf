(** Specification vocabulary of the GPU operations. *)
From Coq Require Import List ZArith.
Import ListNotations.

Definition sum_of (l : list Z) : Z := fold_right Z.add 0%Z l.
(** [out] holds, at every index, the sum of the entries of [l] before it. *)
Definition prefix_sums (l out : list Z) : Prop :=
  length out = length l /\ forall i, i < length l -> nth i out 0%Z = sum_of (firstn i l).
