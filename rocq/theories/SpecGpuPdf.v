(** Specification vocabulary for the CUDA density operation. *)
From Coq Require Import List Arith ZArith Reals.
From Verif Require Import RTensor Pdf SpecPdf SpecGpuBasis.
Import ListNotations.
Local Open Scope nat_scope.

(** The kernel uses eight digits of 1 / sqrt (2 PI). *)
Definition rounded_normal (z : R) : R := (0.39894228 * exp (- (z * z) / 2))%R.
(** Product kernel of points [p] and [i]; [s] are the inverse bandwidths and
    [r] the inverse radii of the axes, [x] the coordinates. *)
Definition cuda_kernel (D : nat) (s r : nat -> R) (x : nat -> nat -> R) (p i : nat) : R :=
  product_over (seq 0 D) (fun d => s d * rounded_normal ((x p d - x i d) * s d * r d))%R.
(** The density at point [i] for the neighbor list [nbs]. *)
Definition cuda_density (D : nat) (s r : nat -> R) (x : nat -> nat -> R) (nbs : list (nat * nat)) (i : nat) : R :=
  sum_over (rows_of_center nbs i) (fun m => cuda_kernel D s r x (fst (nth m nbs (0, 0))) i).
(** The inverse bandwidths of the two modes: given, or by the number of points. *)
Definition inverse_bandwidth (mode : kde_mode) (N : nat) (invbw : list R) (d : nat) : R :=
  match mode with KConstant => nth d invbw 0%R | _ => sqrt (INR N) end.

(** The points moved by [h] times the direction [v]. *)
Definition moved (N D : nat) (points : ten) (v : nat -> nat -> R) (h : R) : ten :=
  ttab [N; D] (fun idx => match idx with [p; d] => tget points [p; d] + h * v p d | _ => 0 end)%R.
(** Scalar products of two vectors, and of a matrix and a direction. *)
Definition dot1 (N : nat) (a b : list R) : R := sum_over (seq 0 N) (fun i => nth i a 0 * nth i b 0)%R.
Definition along (N D : nat) (t : ten) (v : nat -> nat -> R) : R :=
  sum_over (seq 0 N) (fun p => sum_over (seq 0 D) (fun d => tget t [p; d] * v p d)%R).

(** Equal up to a relative error. *)
Definition within (e a b : R) : Prop := (Rabs (a - b) <= e * Rabs b)%R.
