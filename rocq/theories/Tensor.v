(** TensorFlow / tensorflow_graphics primitives used by the modelled code.

    These are not part of /repo; they are the assumed behaviour of the
    libraries the code calls (see DESIGN.md, trusted base).  Each definition
    names the library function it stands for and where /repo calls it. *)
From Coq Require Import List Arith ZArith QArith Lia Bool.
Import ListNotations.
Local Open Scope nat_scope.

(** Exceptions as values. [InvalidArgument] is any TensorFlow runtime error,
    [OutOfScope] marks inputs whose behaviour the model does not describe. *)
Inductive err :=
| ValueError | AssertionError | IndexError | InvalidArgument
| TypeError | AttributeError | KeyError | FileNotFound | OutOfScope.

Inductive result (A : Type) :=
| Ok (a : A)
| Err (e : err).
Arguments Ok {A} a.
Arguments Err {A} e.

Definition bind {A B} (r : result A) (f : A -> result B) : result B :=
  match r with Ok a => f a | Err e => Err e end.
Notation "x <- m ;; k" := (bind m (fun x => k))
  (at level 61, m at next level, right associativity).

(** Devices: TensorFlow's CPU kernels reject out-of-range gather / segment
    indices, the GPU kernels return zeros / drop the entry. *)
Inductive device := CPU | GPU.

Definition nprod (s : list nat) : nat := fold_right Nat.mul 1 s.

(** [tf.gather(params, indices)] along axis 0 (CPU: range check). *)
Fixpoint gather {A} (l : list A) (idx : list nat) : result (list A) :=
  match idx with
  | [] => Ok []
  | i :: idx' =>
    match nth_error l i with
    | None => Err InvalidArgument
    | Some a => r <- gather l idx' ;; Ok (a :: r)
    end
  end.

(** Stable insertion sort; the engine of [argsort]. *)
Fixpoint insert {A} (le : A -> A -> bool) (x : A) (l : list A) : list A :=
  match l with
  | [] => [x]
  | y :: l' => if le x y then x :: l else y :: insert le x l'
  end.
Definition isort {A} (le : A -> A -> bool) (l : list A) : list A :=
  fold_right (insert le) [] l.

(** [tf.argsort(values)]: TensorFlow implements it with [top_k], which breaks
    ties by the lower index, i.e. the sort is stable in both directions. *)
Definition argsort {A} (le : A -> A -> bool) (l : list A) : list nat :=
  map snd (isort (fun a b => le (fst a) (fst b)) (combine l (seq 0 (length l)))).

(** [tf.math.invert_permutation(x)] with [x] a permutation of [0..n-1]. *)
Fixpoint find_index (i : nat) (l : list nat) : nat :=
  match l with
  | [] => 0
  | j :: l' => if Nat.eqb i j then 0 else S (find_index i l')
  end.
Definition invert_permutation (l : list nat) : list nat :=
  map (fun i => find_index i l) (seq 0 (length l)).

(** [tf.repeat(data, repeats)]: [repeats] is broadcast if it has one entry,
    otherwise its length has to match. *)
Definition tf_repeat {A} (data : list A) (reps : list nat) : result (list A) :=
  let reps' := match reps with [r] => repeat r (length data) | _ => reps end in
  if Nat.eqb (length reps') (length data)
  then Ok (concat (map (fun p => repeat (fst p) (snd p)) (combine data reps')))
  else Err InvalidArgument.

(** [tf.unique_with_counts(x)]: distinct values in order of first occurrence,
    and how often each occurs. *)
Fixpoint count {A} (eqb : A -> A -> bool) (x : A) (l : list A) : nat :=
  match l with
  | [] => 0
  | y :: l' => (if eqb x y then 1 else 0) + count eqb x l'
  end.
Fixpoint uniq_aux {A} (eqb : A -> A -> bool) (seen l : list A) : list A :=
  match l with
  | [] => []
  | x :: l' => if existsb (eqb x) seen then uniq_aux eqb seen l'
               else x :: uniq_aux eqb (x :: seen) l'
  end.
Definition uniq {A} (eqb : A -> A -> bool) (l : list A) : list A :=
  uniq_aux eqb [] l.
Definition unique_with_counts {A} (eqb : A -> A -> bool) (l : list A)
  : list A * list nat :=
  (uniq eqb l, map (fun x => count eqb x l) (uniq eqb l)).

(** The rows of [data] whose segment id is [s]. *)
Definition segment {A} (s : nat) (data : list A) (ids : list nat) : list A :=
  map fst (filter (fun p => Nat.eqb (snd p) s) (combine data ids)).

(** [tf.math.unsorted_segment_*(data, segment_ids, num_segments)] with
    reduction [red] applied to the rows of each segment. *)
Definition unsorted_segment {A B} (dev : device) (red : list A -> B)
  (data : list A) (ids : list nat) (n : nat) : result (list B) :=
  if negb (Nat.eqb (length data) (length ids)) then Err InvalidArgument
  else if (match dev with CPU => negb (forallb (fun i => i <? n) ids) | GPU => false end)
  then Err InvalidArgument
  else Ok (map (fun s => red (segment s data ids)) (seq 0 n)).

(** [tf.sequence_mask(sizes, V)], flattened row-major. *)
Definition sequence_mask (sizes : list nat) (V : nat) : list bool :=
  concat (map (fun n => map (fun j => j <? n) (seq 0 V)) sizes).

(** [tf.gather_nd(data, tf.where(mask))]. *)
Fixpoint mask_select {A} (mask : list bool) (data : list A) : list A :=
  match mask, data with
  | b :: m, x :: d => if b then x :: mask_select m d else mask_select m d
  | _, _ => []
  end.

(** [tf.scatter_nd(tf.where(mask), data, shape)]: zeros where the mask is
    false; the number of updates has to be the number of indices. *)
Fixpoint mask_scatter {A} (zero : A) (mask : list bool) (data : list A)
  : result (list A) :=
  match mask with
  | [] => match data with [] => Ok [] | _ => Err InvalidArgument end
  | false :: m => r <- mask_scatter zero m data ;; Ok (zero :: r)
  | true :: m =>
    match data with
    | [] => Err InvalidArgument
    | x :: d => r <- mask_scatter zero m d ;; Ok (x :: r)
    end
  end.

(** A tensor [[A1..An, V, _]]: batch shape, V and the rows in row-major order. *)
Record padded (A : Type) := Padded {
  pshape : list nat;
  pV : nat;
  prows : list A }.
Arguments Padded {A}. Arguments pshape {A}. Arguments pV {A}. Arguments prows {A}.

(** An int tensor of arbitrary rank: shape and row-major entries. *)
Record itensor := ITensor { ishape : list nat; ivals : list nat }.

Fixpoint list_eqb {A} (eqb : A -> A -> bool) (l m : list A) : bool :=
  match l, m with
  | [], [] => true
  | x :: l', y :: m' => eqb x y && list_eqb eqb l' m'
  | _, _ => false
  end.

Definition list_max0 (l : list nat) : nat := fold_right Nat.max 0 l.

(** [tf.reshape(t, shape)] on an int tensor. *)
Definition reshape (t : itensor) (s : list nat) : result itensor :=
  if Nat.eqb (length (ivals t)) (nprod s) then Ok (ITensor s (ivals t))
  else Err InvalidArgument.

(** tensorflow_graphics [flatten_batch_to_2d(data, sizes)] (called in
    PointCloud.py:136, utils.py:86): shape check, mask of valid rows, rows
    selected row-major. The returned closure is [unflatten_padded]. *)
Definition flatten_batch_to_2d {A} (data : padded A) (sizes : itensor)
  : result (list A) :=
  if list_eqb Nat.eqb (ishape sizes) (pshape data)
  then Ok (mask_select (sequence_mask (ivals sizes) (pV data)) (prows data))
  else Err ValueError.

Definition unflatten_padded {A} (zero : A) (shape : list nat) (V : nat)
  (sizes : list nat) (data : list A) : result (padded A) :=
  r <- mask_scatter zero (sequence_mask sizes V) data ;; Ok (Padded shape V r).

(** tensorflow_graphics [unflatten_2d_to_batch(data, sizes, max_rows)]
    (called in PointCloud.py:229). *)
Definition unflatten_2d_to_batch {A} (zero : A) (data : list A)
  (sizes : itensor) (max_rows : option nat) : result (padded A) :=
  let V := match max_rows with Some v => v | None => list_max0 (ivals sizes) end in
  r <- mask_scatter zero (sequence_mask (ivals sizes) V) data ;;
  Ok (Padded (ishape sizes) V r).
