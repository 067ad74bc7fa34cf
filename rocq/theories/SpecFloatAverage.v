(** Specification vocabulary for averages under rounding (C76). *)
From Coq Require Import List Arith ZArith QArith Qround Qabs Bool.
From Verif Require Import Tensor PointCloud Spec SpecGrid Grid SpecNeighbors SpecSampling Float SpecFloat.
Import ListNotations.
Local Open Scope nat_scope.

(** [p] is near the mean of the points with indices [grp]: for coordinates of
    magnitude up to [m] the error is at most [m] times the number of points
    divided by 2^23. *)
Definition near_mean (D : nat) (rows : list point) (grp : list nat) (p : point) : Prop :=
  exists exact, is_mean D rows grp exact /\ length p = D /\
    forall d m, d < D -> (forall i, In i grp -> (Qabs (xc rows i d) <= m)%Q) ->
      (Qabs (nth d p 0 - nth d exact 0) <= m * (inject_Z (Z.of_nat (length grp)) / 8388608) + pow2 (-148))%Q.

(** Cell averages of the points [rows], [ids] in float32: one output point per
    occupied cell, as the cells are computed, near the mean of its points and
    labelled with their element; a point that is alone in its cell is kept, and
    the average of two points lies between them. *)
Definition cell_average32 (D : nat) (cells : list Q) (rows : list point) (ids : list nat)
  (out : list point) (out_ids : list nat) : Prop :=
  exists (lo : nat -> list Q) (groups : list (list nat)),
    (forall b, In b ids -> lower_corner32 D rows ids b (lo b)) /\
    let c i d := Qfloor (position32 (nth d (lo (nth i ids 0)) 0%Q) (nth d cells 0%Q) (xc rows i d)) in
    cell_groups D (fun i j => forall d, d < D -> c i d = c j d) ids groups /\
    length out = length groups /\ length out_ids = length groups /\
    forall k, k < length groups ->
      let grp := nth k groups [] in
      near_mean D rows grp (nth k out []) /\
      (forall i, In i grp -> nth k out_ids 0 = nth i ids 0) /\
      (forall i, grp = [i] -> forall d, d < D -> (nth d (nth k out []) 0 == xc rows i d)%Q) /\
      (forall i j, grp = [i; j] -> forall d, d < D -> (xc rows i d <= xc rows j d)%Q ->
         (xc rows i d <= nth d (nth k out []) 0 /\ nth d (nth k out []) 0 <= xc rows j d)%Q).
