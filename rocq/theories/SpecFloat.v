(** Specification vocabulary for the float32 properties. *)
From Coq Require Import List Arith ZArith QArith Qround Qabs.
From Verif Require Import SpecGrid Float.
Import ListNotations.
Local Open Scope nat_scope.

(** A number float32 represents; a batch of such coordinates. *)
Definition is_float32 (x : Q) : Prop := (f32 x == x)%Q.
Definition float32_batch (D : nat) (rows : list (list Q)) (ids : list nat) : Prop :=
  forall i d, i < length ids -> d < D -> is_float32 (xc rows i d).

(** [lo] and [hi] are the corners of the box of element [b]: the smallest
    coordinate minus 1e-9 and the largest plus 1e-9, rounded. *)
Definition lower_corner32 (D : nat) (rows : list (list Q)) (ids : list nat) (b : nat) (lo : list Q) : Prop :=
  forall d, d < D -> exists i, i < length ids /\ nth i ids 0 = b /\
    (forall j, j < length ids -> nth j ids 0 = b -> (xc rows i d <= xc rows j d)%Q) /\
    (nth d lo 0 == f32 (xc rows i d - f32 (1 # 1000000000)))%Q.
Definition upper_corner32 (D : nat) (rows : list (list Q)) (ids : list nat) (b : nat) (hi : list Q) : Prop :=
  forall d, d < D -> exists i, i < length ids /\ nth i ids 0 = b /\
    (forall j, j < length ids -> nth j ids 0 = b -> (xc rows j d <= xc rows i d)%Q) /\
    (nth d hi 0 == f32 (xc rows i d + f32 (1 # 1000000000)))%Q.

(** The position of [x], counted in cells of size [c] from [lo], as float32
    arithmetic computes it. *)
Definition position32 (lo c x : Q) : Q := f32 (f32 (x - lo) / c).

(** The radius [r], reduced by the rounding errors in a grid of [n] cells. *)
Definition safe_radius (n : Z) (r : Q) : Q := (r * (1 - (inject_Z n + 2) / 4194304))%Q.
