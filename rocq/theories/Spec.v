(** Specification vocabulary for the point cloud properties, written without
    reference to the model: only lists, [filter], [count_occ] and arithmetic. *)
From Coq Require Import List Arith ZArith QArith Bool.
Import ListNotations.
Local Open Scope nat_scope.

(** The rows of batch element [b], in their original order. *)
Definition element {A} (b : nat) (rows : list A) (ids : list nat) : list A :=
  map fst (filter (fun p => Nat.eqb (snd p) b) (combine rows ids)).

(** The true sizes of the [B] batch elements. *)
Definition true_sizes (B : nat) (ids : list nat) : list nat :=
  map (fun b => count_occ Nat.eq_dec ids b) (seq 0 B).

(** [l] followed by zero rows up to width [V]. *)
Definition zero_padded {A} (zero : A) (V : nat) (l : list A) : list A :=
  l ++ repeat zero (V - length l).

(** The padded layout of a batch: all elements, padded, one after the other. *)
Definition padded_layout {A} (zero : A) (V B : nat) (rows : list A) (ids : list nat) : list A :=
  concat (map (fun b => zero_padded zero V (element b rows ids)) (seq 0 B)).

(** No element of the batch is empty. *)
Definition all_nonempty (B : nat) (ids : list nat) : Prop := forall b, b < B -> In b ids.

(** [i] is the [k]-th row (from 0) of its batch element. *)
Definition rank (i : nat) (ids : list nat) : nat :=
  count_occ Nat.eq_dec (firstn i ids) (nth i ids 0).

(** Row-major position of a multi-index. *)
Fixpoint row_major (shape idx : list nat) : nat :=
  match shape, idx with
  | _ :: s, i :: r => i * fold_right Nat.mul 1 s + row_major s r
  | _, _ => 0
  end.
Definition in_shape (shape idx : list nat) : Prop := Forall2 (fun n i => i < n) shape idx.

Definition sum (l : list nat) : nat := fold_right Nat.add 0 l.

(** Batch ids of concatenated elements of the given sizes. *)
Definition ids_of_sizes (sizes : list nat) : list nat :=
  concat (map (fun b => repeat b (nth b sizes 0)) (seq 0 (length sizes))).

(** The valid rows of a padded tensor: the first [sizes[b]] rows of every
    block of [V] rows. *)
Definition valid_rows {A} (sizes : list nat) (V : nat) (rows : list A) : list A :=
  concat (map (fun b => firstn (nth b sizes 0) (skipn (b * V) rows)) (seq 0 (length sizes))).

(** Squared euclidean distance of two points of dimension [D]. *)
Definition dist2 (D : nat) (p q : list Q) : Q :=
  fold_right Qplus 0%Q
    (map (fun d => (nth d p 0 - nth d q 0) * (nth d p 0 - nth d q 0))%Q (seq 0 D)).
