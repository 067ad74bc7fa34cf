(** Specification vocabulary of the training data generator. *)
From Coq Require Import List Arith ZArith QArith Permutation.
From Verif Require Import Tensor Generator.
Import ListNotations.
Local Open Scope nat_scope.

(** A generator made from the data and used in any way: every shuffle is a
    permutation of the models. *)
Inductive in_use (points : list (list (list Q))) (ls : list nat) (B : nat) (aug : bool) (samples : nat) : generator -> Prop :=
| in_use_new perm : Permutation perm (seq 0 (length points)) -> in_use points ls B aug samples (new_generator points ls B aug perm)
| in_use_call g draws : in_use points ls B aug samples g -> in_use points ls B aug samples (gen_step samples g (GenCall draws))
| in_use_get g i : in_use points ls B aug samples g -> in_use points ls B aug samples (gen_step samples g (GenGet i))
| in_use_end g perm : in_use points ls B aug samples g -> Permutation perm (seq 0 (length points)) ->
    in_use points ls B aug samples (gen_step samples g (GenEpochEnd perm)).

(** A point with every coordinate multiplied by the factor of its axis. *)
Definition stretched (s row : list Q) : list Q :=
  map (fun d => nth d row 0 * nth d s 0)%Q (seq 0 (Nat.min (length row) (length s))).
(** The points shown for a model: its first [samples] points, with factors
    [s] per axis if augmented. *)
Definition shown (aug : bool) (samples : nat) (s : list Q) (m : list (list Q)) : list (list Q) :=
  if aug then map (stretched s) (firstn samples m) else firstn samples m.

