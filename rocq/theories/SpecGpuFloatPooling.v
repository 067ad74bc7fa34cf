(** Specification vocabulary for local pooling with the CUDA operations in float32
    (C81). *)
From Coq Require Import List Arith ZArith QArith Bool.
From Verif Require Import Tensor Spec PointCloud SpecCloud Grid SpecGrid Neighbors SpecNeighbors.
Import ListNotations.

(** [l] are different points of the element of center [i], all inside the
    ellipsoid with semi-axes [large], and among them all points inside the one
    with semi-axes [small]. *)
Definition ellipsoids_between (D : nat) (small large : list Q) (rows : list point) (ids : list nat) (crows : list point)
  (cids : list nat) (i : nat) (l : list nat) : Prop :=
  NoDup l /\ (forall j, In j l -> inside_ellipsoid D large rows ids crows cids j i) /\
  (forall j, inside_ellipsoid D small rows ids crows cids j i -> In j l).
