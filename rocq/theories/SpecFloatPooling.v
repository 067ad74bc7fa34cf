(** Specification vocabulary for local pooling in float32 (C80). *)
From Coq Require Import List Arith ZArith QArith Bool.
From Verif Require Import Tensor Spec PointCloud SpecCloud Grid SpecGrid Neighbors SpecNeighbors.
Import ListNotations.

(** [l] are different points of the element of center [i], all closer than
    [large], and among them all points closer than [small]. *)
Definition neighbors_between (D : nat) (small large : Q) (rows : list point) (ids : list nat) (crows : list point)
  (cids : list nat) (i : nat) (l : list nat) : Prop :=
  NoDup l /\ (forall j, In j l -> near D large rows ids crows cids j i) /\
  (forall j, near D small rows ids crows cids j i -> In j l).
