(** Specification vocabulary for the keys of the CUDA operation in float32. *)
From Coq Require Import List ZArith QArith.
From Verif Require Import Float.

(** The position of [x], counted in cells of size [c] from [lo], as the CUDA
    operation computes it: the rounded inverse of the cell size times the
    coordinate, minus the rounded quotient of the corner; with one rounding of
    product and difference ([fused]) or with two. *)
Definition device_position32 (fused : bool) (lo c x : Q) : Q :=
  let scaled := (x * f32 (/ c))%Q in
  f32 ((if fused then scaled else f32 scaled) - f32 (lo / c)).

(** All radii times [s]. *)
Definition times_radii (s : Q) (radii : list Q) : list Q := map (fun r => s * r)%Q radii.
