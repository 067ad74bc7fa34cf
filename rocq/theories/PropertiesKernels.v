(** Random rotation and kernel points.
    Generated by tools/gen_props.py from KernelProofs.v: statements only. *)
From Coq Require Import List Arith Reals Lia Lra Bool Permutation.
From Verif Require Import Tensor TensorFacts Pdf SpecPdf RTensor RTensorFacts NeighborFacts Kernels SpecKernels.
From Verif Require Import KernelProofs.
Import ListNotations.
Local Open Scope R_scope.

(** C35: for all angles the result has the same shape, all pairwise distances
    and distances from the origin are the same, and the orientation of any
    three points is kept. *)
Theorem C35_rotation :
  forall ax ay az N (p : list nat -> R), let points := ttab [N; 3]%nat p in
    exists q, random_rotation ax ay az points = Ok q /\ tshape q = [N; 3]%nat /\
      (forall i j, (i < N)%nat -> (j < N)%nat -> sqdist q i j = sqdist points i j) /\
      (forall i, (i < N)%nat -> sqnorm q i = sqnorm points i) /\
      (forall i j k, (i < N)%nat -> (j < N)%nat -> (k < N)%nat -> det3 q i j k = det3 points i j k).
Proof. exact C35_rotation_proof. Qed.
Print Assumptions C35_rotation.

Example C35_rotation_ex :
  exists q, random_rotation 0 (PI / 2) 0 (ttab [1; 3]%nat (fun idx => match idx with [_; d] => INR (d + 1) | _ => 0 end)) = Ok q /\
    co q 0 0 = 3 /\ co q 0 1 = 2 /\ co q 0 2 = -1.
Proof. exact C35_rotation_ex_proof. Qed.

(** C36 for the counts 5, 7 and 18: the given number of points, the first is
    the origin, all are within the unit ball and no two are equal; for every
    rotation. *)
Theorem C36_spherical_partial :
  forall num angles, In num [5; 7; 18]%nat ->
    exists t, spherical_kernel_points num angles = Ok t /\ tshape t = [num; 3]%nat /\
      sqnorm t 0 = 0 /\ (forall i, (i < num)%nat -> sqnorm t i <= 1) /\
      (forall i j, (i < num)%nat -> (j < num)%nat -> i <> j -> 0 < sqdist t i j).
Proof. exact C36_spherical_partial_proof. Qed.
Print Assumptions C36_spherical_partial.

Example C36_spherical_ex :
  exists t, spherical_kernel_points 5 (Some (0, PI / 2, 0)) = Ok t /\ co t 1 0 = 1 /\ co t 1 2 = 0.
Proof. exact C36_spherical_ex_proof. Qed.

(** Any other count but 13 and 15 is rejected. *)
Theorem C36_rejected :
  forall num angles, ~ In num [5; 7; 13; 15; 18]%nat -> spherical_kernel_points num angles = Err ValueError.
Proof. exact C36_rejected_proof. Qed.
Print Assumptions C36_rejected.

Example C36_rejected_ex : spherical_kernel_points 6 None = Err ValueError /\ spherical_kernel_points 0 (Some (0, 0, 0)) = Err ValueError.
Proof. exact C36_rejected_ex_proof. Qed.

(** C36: for every rotation, the four points around the origin of five points
    are the vertices of a regular tetrahedron, the six of seven points those of
    a regular octahedron, opposite ones next to each other; all are on the unit
    sphere. *)
Theorem C36_regular :
  forall angles,
    (exists t, spherical_kernel_points 5 angles = Ok t /\
      (forall i, (0 < i < 5)%nat -> sqnorm t i = 1) /\
      (forall i j, (0 < i < 5)%nat -> (0 < j < 5)%nat -> i <> j -> sqdist t i j = 8 / 3)) /\
    (exists t, spherical_kernel_points 7 angles = Ok t /\
      (forall i, (0 < i < 7)%nat -> sqnorm t i = 1) /\
      (forall i j, (0 < i < 7)%nat -> (0 < j < 7)%nat -> i <> j -> sqdist t i j = if ((i - 1) / 2 =? (j - 1) / 2)%nat then 4 else 2)).
Proof. exact C36_regular_proof. Qed.
Print Assumptions C36_regular.

Example C36_regular_ex : exists t, spherical_kernel_points 5 None = Ok t /\ co t 2 0 = sqrt (8/9) /\ co t 2 2 = - (1/3).
Proof. exact C36_regular_ex_proof. Qed.

(** With 13 points the call fails although the count is documented. With 15
    points two of the points are equal, whatever the rotation. *)
Theorem C36_thirteen_refuted : forall angles, spherical_kernel_points 13 angles = Err InvalidArgument.
Proof. exact C36_thirteen_refuted_proof. Qed.
Print Assumptions C36_thirteen_refuted.

Theorem C36_fifteen_refuted :
  forall angles, exists t, spherical_kernel_points 15 angles = Ok t /\ tshape t = [15; 3]%nat /\
    sqdist t 6 8 = 0 /\ sqdist t 12 14 = 0.
Proof. exact C36_fifteen_refuted_proof. Qed.
Print Assumptions C36_fifteen_refuted.

(** C36, the cube: the points are exactly the [k^3] points of the regular
    [k] x [k] x [k] grid of the unit cube, each once. *)
Theorem C36_cube :
  forall k, length (cube_kernel_points k) = (k * k * k)%nat /\ NoDup (cube_kernel_points k) /\
    forall p, In p (cube_kernel_points k) <->
      exists a b c, (a < k)%nat /\ (b < k)%nat /\ (c < k)%nat /\ p = [grid_value k a; grid_value k b; grid_value k c].
Proof. exact C36_cube_proof. Qed.
Print Assumptions C36_cube.

Example C36_cube_ex : In [1/2; 0; 1] (cube_kernel_points 3) /\ ~ In [1/3; 0; 1] (cube_kernel_points 3).
Proof. exact C36_cube_ex_proof. Qed.
