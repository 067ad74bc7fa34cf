(** Specification vocabulary for the grid and neighbor search properties. *)
From Coq Require Import List Arith ZArith QArith Qround Bool.
Import ListNotations.
Local Open Scope nat_scope.

(** Coordinate [d] of point [i]. *)
Definition xc (rows : list (list Q)) (i d : nat) : Q := nth d (nth i rows []) 0%Q.

(** [lo] is the lower corner of the box of element [b] with margin [eps]: in
    every dimension it is the smallest coordinate of the element minus [eps]. *)
Definition lower_corner (D : nat) (eps : Q) (rows : list (list Q)) (ids : list nat) (b : nat)
  (lo : list Q) : Prop :=
  forall d, d < D ->
    (forall i, i < length ids -> nth i ids 0 = b -> (nth d lo 0 <= xc rows i d - eps)%Q) /\
    (exists i, i < length ids /\ nth i ids 0 = b /\ (nth d lo 0 == xc rows i d - eps)%Q).

(** The cell of a point in dimension [d], counted from the lower corner. *)
Definition cell (lo cells : list Q) (p : list Q) (d : nat) : Z :=
  Qfloor ((nth d p 0 - nth d lo 0) / nth d cells 0)%Q.

(** Extents that are a positive multiple of the cell size: two points of an
    element are exactly [k] cells apart in some dimension and no element
    extends further. Only then can a point without box margin lie on the far
    boundary of the grid. *)
Definition boundary_case (D : nat) (cells : list Q) (rows : list (list Q)) (ids : list nat) : Prop :=
  exists i j d (k : Z), i < length ids /\ j < length ids /\ nth i ids 0 = nth j ids 0 /\ d < D /\
    (0 < k)%Z /\ (xc rows i d - xc rows j d == inject_Z k * nth d cells 0)%Q /\
    forall i' j', i' < length ids -> j' < length ids -> nth i' ids 0 = nth j' ids 0 ->
      (xc rows i' d - xc rows j' d <= inject_Z k * nth d cells 0)%Q.

(** Every point lies inside the grid: the margin is positive, or there is no
    boundary case. *)
Definition fits (eps : Q) (D : nat) (cells : list Q) (rows : list (list Q)) (ids : list nat) : Prop :=
  (0 < eps)%Q \/ ((0 == eps)%Q /\ ~ boundary_case D cells rows ids).

(** [n] is the number of cells needed in dimension [d]: the least number
    [>= 1] of cells that covers every element with its margins. *)
Definition cells_needed (eps : Q) (cells : list Q) (rows : list (list Q)) (ids : list nat) (d : nat)
  (n : Z) : Prop :=
  let covers (m : Z) := (1 <= m)%Z /\
    forall i j, i < length ids -> j < length ids -> nth i ids 0 = nth j ids 0 ->
      (xc rows i d - xc rows j d + (2 # 1) * eps <= inject_Z m * nth d cells 0)%Q in
  covers n /\ forall m, covers m -> (n <= m)%Z.

(** Products and sums of integers. *)
Definition product (l : list Z) : Z := fold_right Z.mul 1%Z l.
Definition total (l : list Z) : Z := fold_right Z.add 0%Z l.

(** Cell sizes as given by the caller, a single one meaning all dimensions. *)
Definition all_dims (D : nat) (l : list Q) : list Q :=
  match l with [x] => repeat x D | _ => l end.
Definition valid_sizes (D : nat) (l : list Q) : Prop :=
  length (all_dims D l) = D /\ Forall (fun c => (0 < c)%Q) (all_dims D l).
