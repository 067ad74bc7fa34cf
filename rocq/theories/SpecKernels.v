(** Vocabulary of the properties C35 and C36. *)
From Coq Require Import List Arith Reals.
From Verif Require Import RTensor SpecPdf.
Import ListNotations.
Local Open Scope R_scope.

(** Coordinate [d] of row [i] of a matrix; squared distance of two rows;
    squared distance from the origin. *)
Definition co (t : ten) (i d : nat) : R := tget t [i; d].
Definition sqdist (t : ten) (i j : nat) : R :=
  sum_over (seq 0 3) (fun d => (co t i d - co t j d) * (co t i d - co t j d)).
Definition sqnorm (t : ten) (i : nat) : R := sum_over (seq 0 3) (fun d => co t i d * co t i d).
(** Determinant of three rows: six times the signed volume of the tetrahedron
    they span with the origin. *)
Definition det3 (t : ten) (i j k : nat) : R :=
  co t i 0 * (co t j 1 * co t k 2 - co t j 2 * co t k 1)
  - co t i 1 * (co t j 0 * co t k 2 - co t j 2 * co t k 0)
  + co t i 2 * (co t j 0 * co t k 1 - co t j 1 * co t k 0).

(** Coordinate [i] of a regular grid of [k] values from 0 to 1. *)
Definition grid_value (k i : nat) : R := if (k =? 1)%nat then 0 else INR i / INR (k - 1).
