(** Specification vocabulary for the sampling properties. *)
From Coq Require Import String List Arith ZArith QArith Bool Permutation.
From Verif Require Import Tensor PointCloud Spec SpecGrid Grid SpecNeighbors.
From Verif Require Export SpecText.
Import ListNotations.
Local Open Scope nat_scope.

(** [sel] is a Poisson disk sample of radius [r]: distinct points, those of one
    element at least [r] apart, and every point closer than [r] to a sample of
    its element. *)
Definition poisson_sample (D : nat) (r : Q) (rows : list point) (ids sel : list nat) : Prop :=
  NoDup sel /\ Forall (fun i => i < length ids) sel /\
  (forall i j, In i sel -> In j sel -> i <> j -> nth i ids 0 = nth j ids 0 ->
     (r * r <= dist2 D (nth i rows []) (nth j rows []))%Q) /\
  (forall j, j < length ids -> exists i, In i sel /\ nth j ids 0 = nth i ids 0 /\
     (dist2 D (nth j rows []) (nth i rows []) < r * r)%Q).

(** [p] is the arithmetic mean of the points with indices [grp]. *)
Definition is_mean (D : nat) (rows : list point) (grp : list nat) (p : point) : Prop :=
  length p = D /\ grp <> [] /\
  forall d, d < D ->
    (inject_Z (Z.of_nat (length grp)) * nth d p 0 == fold_right Qplus 0 (map (fun i => xc rows i d) grp))%Q.

(** [groups] lists the occupied cells: it partitions the points, and two points
    are in one group iff they belong to the same element and the same cell. *)
Definition cell_groups (D : nat) (same_cell : nat -> nat -> Prop) (ids : list nat) (groups : list (list nat)) : Prop :=
  Permutation (concat groups) (seq 0 (length ids)) /\ Forall (fun grp => grp <> []) groups /\
  forall i j, i < length ids -> j < length ids ->
    ((exists grp, In grp groups /\ In i grp /\ In j grp) <-> nth i ids 0 = nth j ids 0 /\ same_cell i j).

(** Cell averages of the points [rows], [ids]: one output point per occupied
    cell, the mean of the points of the cell, labelled with their element and
    itself inside the cell. *)
Definition cell_average (eps : Q) (D : nat) (cells : list Q) (rows : list point) (ids : list nat)
  (out : list point) (out_ids : list nat) : Prop :=
  exists (lo : nat -> list Q) (groups : list (list nat)),
    (forall b, In b ids -> lower_corner D eps rows ids b (lo b)) /\
    let c i d := cell (lo (nth i ids 0)) cells (nth i rows []) d in
    cell_groups D (fun i j => forall d, d < D -> c i d = c j d) ids groups /\
    length out = length groups /\ length out_ids = length groups /\
    forall k, k < length groups ->
      is_mean D rows (nth k groups []) (nth k out []) /\
      forall i, In i (nth k groups []) ->
        nth k out_ids 0 = nth i ids 0 /\
        forall d, d < D -> cell (lo (nth i ids 0)) cells (nth k out []) d = c i d.

(** The documented names of the two sampling modes. *)
Definition poisson_names : list string := ["poisson"; "poisson disk"; "poisson_disk"]%string.
Definition average_names : list string := ["average"; "cell average"; "cell_average"]%string.
