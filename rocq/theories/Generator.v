(** Model of the training data generator of modelnet40.py:404-461 and
    modelnet40_small.py:265-322 (the same class twice). *)
From Coq Require Import List Arith ZArith QArith Bool.
From Verif Require Import Tensor.
Import ListNotations.
Local Open Scope nat_scope.

(** modelnet40.py:407-420, the attributes. [epoch_size] is the number of
    models. *)
Record generator := Generator {
  models : list (list (list Q));
  labels : list nat;
  batch : nat;
  augment : bool;
  order : list nat;
  position : nat }.

(** modelnet40.py:457-461, on_epoch_end. [perm] is the drawn permutation. *)
Definition on_epoch_end (perm : list nat) (g : generator) : generator :=
  Generator (models g) (labels g) (batch g) (augment g) perm 0.
(** modelnet40.py:407-420. *)
Definition new_generator (points : list (list (list Q))) (ls : list nat) (B : nat) (aug : bool) (perm : list nat) : generator :=
  on_epoch_end perm (Generator points ls B aug [] 0).

(** modelnet40.py:422-424, __len__. A batch size of zero divides by zero
    (reported here as a ValueError). *)
Definition num_batches (g : generator) : result nat :=
  if batch g =? 0 then Err ValueError else Ok (length (models g) / batch g).

(** Assigning an array of rows to a slot of [n] rows: numpy broadcasts a single
    row and rejects other lengths. *)
Definition assign_rows (n : nat) (rows : list (list Q)) : result (list (list Q)) :=
  if length rows =? n then Ok rows
  else match rows with [r] => Ok (repeat r n) | _ => Err ValueError end.

Definition scaled (s : list Q) (row : list Q) : list Q := map (fun p => (fst p * snd p)%Q) (combine row s).

(** One slot of the loop in lines 445-455: points and label of the model with
    the index found at position [b] of [indices]; [s] are the drawn factors. *)
Definition item (g : generator) (samples : nat) (indices : list nat) (s : list Q) (b : nat) : result (list (list Q) * nat) :=
  match nth_error indices b with
  | None => Err IndexError
  | Some j =>
    match nth_error (models g) j, nth_error (labels g) j with
    | Some m, Some l =>
      rows <- assign_rows samples (firstn samples m) ;;
      Ok (if augment g then map (scaled s) rows else rows, l)
    | _, _ => Err IndexError
    end
  end.
Fixpoint items (g : generator) (samples : nat) (indices : list nat) (draws : nat -> list Q) (bs : list nat) : result (list (list (list Q) * nat)) :=
  match bs with
  | [] => Ok []
  | b :: r => x <- item g samples indices (draws b) b ;; y <- items g samples indices draws r ;; Ok (x :: y)
  end.
(** A batch: points and labels per slot, and the constant input features. *)
Record batch_data := Batch { slots : list (list (list Q) * nat); ones : list (list (list Q)) }.
(** modelnet40.py:433-455, __getitem__ for an index that is not negative.
    [draws b] are the factors drawn for slot [b]. *)
Definition get_item (g : generator) (samples : nat) (draws : nat -> list Q) (index : nat) : result batch_data :=
  let indices := firstn (batch g) (skipn (index * batch g) (order g)) in
  xs <- items g samples indices draws (seq 0 (batch g)) ;;
  Ok (Batch xs (repeat (repeat [1%Q] samples) (batch g))).

(** modelnet40.py:426-431, __call__: the position advances only if the batch
    was produced. *)
Definition call (g : generator) (samples : nat) (draws : nat -> list Q) : generator * result batch_data :=
  match get_item g samples draws (position g) with
  | Ok d => (Generator (models g) (labels g) (batch g) (augment g) (order g) (S (position g)), Ok d)
  | Err e => (g, Err e)
  end.

(** Iterating over a keras Sequence: the items [0 .. len-1]; [on_epoch_end] is
    not called (modelnet40.py:511, 535). *)
Fixpoint get_items (g : generator) (samples : nat) (draws : nat -> nat -> list Q) (is : list nat) : result (list batch_data) :=
  match is with
  | [] => Ok []
  | i :: r => x <- get_item g samples (draws i) i ;; y <- get_items g samples draws r ;; Ok (x :: y)
  end.
Definition iterate (g : generator) (samples : nat) (draws : nat -> nat -> list Q) : result (list batch_data) :=
  n <- num_batches g ;; get_items g samples draws (seq 0 n).

(** What can be done with a generator. *)
Inductive gen_op := GenCall (draws : nat -> list Q) | GenGet (index : nat) | GenEpochEnd (perm : list nat).
Definition gen_step (samples : nat) (g : generator) (o : gen_op) : generator :=
  match o with
  | GenCall draws => fst (call g samples draws)
  | GenGet _ => g
  | GenEpochEnd perm => on_epoch_end perm g
  end.

(** Calling the generator repeatedly after a shuffle. *)
Fixpoint calls (k : nat) (g : generator) (samples : nat) (draws : nat -> nat -> list Q) : generator * list (result batch_data) :=
  match k with
  | 0 => (g, [])
  | S k' => let '(g', d) := call g samples (draws (position g)) in let '(g'', r) := calls k' g' samples draws in (g'', d :: r)
  end.

(** modelnet40.py:499-540, the two loops over the generators in every epoch of
    [training]: the training loop iterates over the generator, nothing else
    happens to it. *)
Definition training_epochs (epochs : nat) (g : generator) (samples : nat) (draws : nat -> nat -> nat -> list Q) : list (result (list batch_data)) :=
  map (fun e => iterate g samples (draws e)) (seq 0 epochs).
