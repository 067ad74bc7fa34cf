(** Specification vocabulary for averages with the CUDA operation in float32
    (C77). *)
From Coq Require Import List Arith ZArith QArith Qround Bool.
From Verif Require Import Tensor PointCloud Spec SpecGrid Grid SpecNeighbors SpecSampling Float SpecFloat SpecGpuFloat SpecFloatAverage.
Import ListNotations.
Local Open Scope nat_scope.

(** Cell averages of the points [rows], [ids] in float32: one output point per
    occupied cell, as the CUDA operation computes the cells (C72) in a grid with
    [counts] cells, near the mean of its points and labelled with their element;
    a point that is alone in its cell is kept, and the average of two points lies
    between them. *)
Definition device_average32 (fused : bool) (D : nat) (cells : list Q) (counts : list Z) (rows : list point) (ids : list nat)
  (out : list point) (out_ids : list nat) : Prop :=
  exists (lo : nat -> list Q) (groups : list (list nat)),
    (forall b, In b ids -> lower_corner32 D rows ids b (lo b)) /\
    let c i d := Z.min (Z.max (Qfloor (device_position32 fused (nth d (lo (nth i ids 0)) 0%Q) (nth d cells 0%Q) (xc rows i d))) 0)
                       (nth d counts 0 - 1)%Z in
    cell_groups D (fun i j => forall d, d < D -> c i d = c j d) ids groups /\
    length out = length groups /\ length out_ids = length groups /\
    forall k, k < length groups ->
      let grp := nth k groups [] in
      near_mean D rows grp (nth k out []) /\
      (forall i, In i grp -> nth k out_ids 0 = nth i ids 0) /\
      (forall i, grp = [i] -> forall d, d < D -> (nth d (nth k out []) 0 == xc rows i d)%Q) /\
      (forall i j, grp = [i; j] -> forall d, d < D -> (xc rows i d <= xc rows j d)%Q ->
         (xc rows i d <= nth d (nth k out []) 0 /\ nth d (nth k out []) 0 <= xc rows j d)%Q).
