(** Specification vocabulary for the CUDA basis projection. *)
From Coq Require Import List Arith Reals.
From Verif Require Import RTensor SpecPdf.
Import ListNotations.
Local Open Scope nat_scope.

(** Positions in the neighbor list of the rows of center [s], and of the rows
    with neighbor [p]. *)
Definition rows_of_center (nbs : list (nat * nat)) (s : nat) : list nat :=
  filter (fun m => snd (nth m nbs (0, 0)) =? s) (seq 0 (length nbs)).
Definition rows_of_neighbor (nbs : list (nat * nat)) (p : nat) : list nat :=
  filter (fun m => fst (nth m nbs (0, 0)) =? p) (seq 0 (length nbs)).

(** A tensor of a given shape. *)
Definition is_tensor (sh : list nat) (t : ten) : Prop := tshape t = sh /\ length (tdata t) = fold_right Nat.mul 1 sh.
(** Sum of the products of the entries of two matrices, and of two tensors with
    three axes. *)
Definition dot2 (n m : nat) (a b : ten) : R :=
  sum_over (seq 0 n) (fun i => sum_over (seq 0 m) (fun j => tget a [i; j] * tget b [i; j])%R).
Definition dot3 (n m k : nat) (a b : ten) : R :=
  sum_over (seq 0 n) (fun i => sum_over (seq 0 m) (fun j => sum_over (seq 0 k) (fun l => tget a [i; j; l] * tget b [i; j; l])%R)).

(** The numbers of basis functions and of features that the operations accept:
    8, 16, 32 or 64, and 1 to 7 or a multiple of 8. *)
Definition supported (K C : nat) : Prop := In K [8; 16; 32; 64] /\ 0 < C /\ (C < 8 \/ C mod 8 = 0).
