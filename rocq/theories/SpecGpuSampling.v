(** Specification vocabulary of the CUDA sampling. *)
From Coq Require Import List Arith ZArith QArith.
From Verif Require Import Tensor PointCloud Spec SpecGrid Grid SpecNeighbors SpecSampling.
Import ListNotations.
Local Open Scope nat_scope.

(** [sel] is a Poisson disk sample for the ellipsoid of the radii: distinct
    points of which none is inside the ellipsoid of another one, and every
    point is inside the ellipsoid of a selected one. Points of different
    elements are never inside each other's ellipsoid. *)
Definition ellipsoid_sample (D : nat) (radii : list Q) (rows : list point) (ids sel : list nat) : Prop :=
  NoDup sel /\ Forall (fun i => i < length ids) sel /\
  (forall i j, In i sel -> In j sel -> i <> j -> ~ inside_ellipsoid D radii rows ids rows ids i j) /\
  (forall j, j < length ids -> exists i, In i sel /\ inside_ellipsoid D radii rows ids rows ids j i).

(** The same with two ellipsoids: none of the selected points is inside the
    smaller one of another, and every point is inside the larger one of a
    selected one. *)
Definition spread_sample (D : nat) (small large : list Q) (rows : list point) (ids sel : list nat) : Prop :=
  NoDup sel /\ Forall (fun i => i < length ids) sel /\
  (forall i j, In i sel -> In j sel -> i <> j -> ~ inside_ellipsoid D small rows ids rows ids i j) /\
  (forall j, j < length ids -> exists i, In i sel /\ inside_ellipsoid D large rows ids rows ids j i).

(** Means over the cells, where a point on the far boundary of the grid, whose
    last cell in dimension [d] is [last d], belongs to the last cell: one output
    point per occupied cell, the mean of its points, with their element. *)
Definition cell_means (eps : Q) (D : nat) (cells : list Q) (last : nat -> Z) (rows : list point) (ids : list nat)
  (out : list point) (out_ids : list nat) : Prop :=
  exists (lo : nat -> list Q) (groups : list (list nat)),
    (forall b, In b ids -> lower_corner D eps rows ids b (lo b)) /\
    let c i d := Z.min (cell (lo (nth i ids 0)) cells (nth i rows []) d) (last d) in
    cell_groups D (fun i j => forall d, d < D -> c i d = c j d) ids groups /\
    length out = length groups /\ length out_ids = length groups /\
    forall k, k < length groups ->
      is_mean D rows (nth k groups []) (nth k out []) /\
      forall i, In i (nth k groups []) -> nth k out_ids 0 = nth i ids 0.
