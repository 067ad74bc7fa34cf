(** Further actions of threads, for kernels on real numbers. *)
From Coq Require Import List Arith Reals.
From Verif Require Import Cuda.
Import ListNotations.

(** [x = f(y1, ..., yk, x)]: reads cells and changes one; an [atomicAdd], or
    several accesses to cells that no other thread changes meanwhile. *)
Definition update {V} (x : nat * nat) (ys : list (nat * nat)) (f : list V -> V -> V) (m : mem V) : option (mem V) :=
  obind (gets ys m) (fun vs => modify x (f vs) m).
(** A value read from an input, which no thread changes, before an action; an
    access outside the input is a fault. *)
Definition with_input {V M} (o : option V) (a : V -> M -> option M) (m : M) : option M := obind o (fun v => a v m).

(** One step of Kahan's summation on (sum, error), e.g.
    basis_proj_grads_kernels.cu.cc:116-122 and 132-141, and the sum of a list. *)
Definition kahan_step (s : R * R) (x : R) : R * R :=
  let a1 := (x - snd s)%R in let a2 := (fst s + a1)%R in (a2, ((a2 - fst s) - a1)%R).
Definition kahan (l : list R) : R := fst (fold_left kahan_step l (0%R, 0%R)).
