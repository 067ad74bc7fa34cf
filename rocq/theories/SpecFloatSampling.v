(** Specification vocabulary for sampling under rounding. *)
From Coq Require Import List Arith ZArith QArith Bool.
From Verif Require Import Tensor PointCloud Spec SpecGrid Grid SpecNeighbors SpecSampling.
Import ListNotations.
Local Open Scope nat_scope.

(** The computed comparison of a distance with the radius: it holds for all
    points of the cloud closer than [small], and for none that are not closer
    than [large]. *)
Definition decides (D : nat) (test : point -> point -> bool) (small large : Q) (rows : list point) : Prop :=
  forall p c, In p rows -> In c rows ->
    ((dist2 D p c < small * small)%Q -> test p c = true) /\
    (test p c = true -> (dist2 D p c < large * large)%Q).

(** As [poisson_sample] with two radii: distinct points, those of one element at
    least [small] apart, and every point closer than [large] to a sample of its
    element. *)
Definition poisson_between (D : nat) (small large : Q) (rows : list point) (ids sel : list nat) : Prop :=
  NoDup sel /\ Forall (fun i => i < length ids) sel /\
  (forall i j, In i sel -> In j sel -> i <> j -> nth i ids 0 = nth j ids 0 ->
     (small * small <= dist2 D (nth i rows []) (nth j rows []))%Q) /\
  (forall j, j < length ids -> exists i, In i sel /\ nth j ids 0 = nth i ids 0 /\
     (dist2 D (nth j rows []) (nth i rows []) < large * large)%Q).
