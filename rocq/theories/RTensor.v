(** TensorFlow operations on real tensors used by the layers.

    Not part of /repo: assumed behaviour of the library (see DESIGN.md, trusted
    base). A tensor is a shape and the list of its entries, last index fastest;
    real numbers stand for floats. Operations whose arguments do not fit return
    [Err InvalidArgument]. *)
From Coq Require Import List Arith Reals Bool.
From Verif Require Import Tensor Pdf.
Import ListNotations.
Local Open Scope nat_scope.

Record ten := Ten { tshape : list nat; tdata : list R }.

(** Position of an index in the data, and all indices of a shape in order. *)
Fixpoint offset (sh idx : list nat) : nat :=
  match sh, idx with
  | _ :: sh', i :: idx' => i * nprod sh' + offset sh' idx'
  | _, _ => 0
  end.
Fixpoint all_indices (sh : list nat) : list (list nat) :=
  match sh with
  | [] => [[]]
  | n :: sh' => flat_map (fun i => map (cons i) (all_indices sh')) (seq 0 n)
  end.

(** Entry of a tensor; the tensor with given entries. *)
Definition tget (t : ten) (idx : list nat) : R := nth (offset (tshape t) idx) (tdata t) 0%R.
Definition ttab (sh : list nat) (f : list nat -> R) : ten := Ten sh (map f (all_indices sh)).

(** Elementwise function of one tensor. *)
Definition tmap (f : R -> R) (t : ten) : ten := Ten (tshape t) (map f (tdata t)).

(** [tf.reshape] to a shape without / with one unknown ([-1]) dimension; the
    size of an unknown dimension is only defined if the others are not 0. *)
Definition treshape (t : ten) (sh : list nat) : result ten :=
  if nprod sh =? length (tdata t) then Ok (Ten sh (tdata t)) else Err InvalidArgument.
Definition treshape_infer (t : ten) (pre post : list nat) : result ten :=
  let k := nprod pre * nprod post in
  if k =? 0 then Err InvalidArgument
  else treshape t (pre ++ (length (tdata t) / k) :: post).

(** [tf.transpose(t, perm)]: axis [k] of the result is axis [perm[k]]. *)
Definition ttranspose (t : ten) (perm : list nat) : result ten :=
  if length perm =? length (tshape t)
  then Ok (ttab (map (fun k => nth k (tshape t) 0) perm)
             (fun idx => tget t (map (fun d => nth (find_index d perm) idx 0) (seq 0 (length perm)))))
  else Err InvalidArgument.

(** [tf.expand_dims(t, axis)]. *)
Definition texpand (t : ten) (axis : nat) : ten :=
  Ten (firstn axis (tshape t) ++ 1 :: skipn axis (tshape t)) (tdata t).

(** Elementwise operation of two tensors of the same rank; dimensions of size 1
    are repeated. *)
Fixpoint bc_shape (s1 s2 : list nat) : option (list nat) :=
  match s1, s2 with
  | [], [] => Some []
  | a :: s1', b :: s2' =>
    match bc_shape s1' s2' with
    | None => None
    | Some s => if a =? b then Some (a :: s) else if a =? 1 then Some (b :: s)
                else if b =? 1 then Some (a :: s) else None
    end
  | _, _ => None
  end.
Fixpoint bc_index (sh idx : list nat) : list nat :=
  match sh, idx with
  | a :: sh', i :: idx' => (if a =? 1 then 0 else i) :: bc_index sh' idx'
  | _, _ => []
  end.
Definition tbin (op : R -> R -> R) (a b : ten) : result ten :=
  match bc_shape (tshape a) (tshape b) with
  | Some sh => Ok (ttab sh (fun idx => op (tget a (bc_index (tshape a) idx)) (tget b (bc_index (tshape b) idx))))
  | None => Err InvalidArgument
  end.

(** [tf.matmul] of two matrices and of two stacks of matrices. *)
Definition tmatmul (a b : ten) : result ten :=
  match tshape a, tshape b with
  | [m; k], [k'; n] =>
    if k =? k'
    then Ok (ttab [m; n] (fun idx => match idx with
               | [i; j] => rsum (map (fun l => tget a [i; l] * tget b [l; j])%R (seq 0 k))
               | _ => 0%R end))
    else Err InvalidArgument
  | [s; m; k], [s'; k'; n] =>
    if (s =? s') && (k =? k')
    then Ok (ttab [s; m; n] (fun idx => match idx with
               | [q; i; j] => rsum (map (fun l => tget a [q; i; l] * tget b [q; l; j])%R (seq 0 k))
               | _ => 0%R end))
    else Err InvalidArgument
  | _, _ => Err InvalidArgument
  end.

(** [tf.tile(t, [n, 1, 1])] for a tensor of shape [[1, m, k]]. *)
Definition ttile0 (t : ten) (n : nat) : result ten :=
  match tshape t with
  | [1; m; k] => Ok (ttab [n; m; k] (fun idx => match idx with [_; i; j] => tget t [0; i; j] | _ => 0%R end))
  | _ => Err InvalidArgument
  end.

(** [tf.pad(t, [[0, 0], [0, extra]])] of a matrix. *)
Definition tpad1 (t : ten) (extra : nat) : result ten :=
  match tshape t with
  | [m; k] => Ok (ttab [m; k + extra] (fun idx => match idx with
                    | [i; j] => if j <? k then tget t [i; j] else 0%R | _ => 0%R end))
  | _ => Err InvalidArgument
  end.

(** [t[:, :, 0:k]]; slicing never fails. *)
Definition ttake2 (t : ten) (k : nat) : result ten :=
  match tshape t with
  | [a; b; c] => Ok (ttab [a; b; Nat.min k c] (tget t))
  | _ => Err InvalidArgument
  end.

(** [tf.linalg.norm(t, axis=k)] with [k] the last axis. *)
Definition tnorm_last (t : ten) : result ten :=
  match tshape t with
  | [] => Err InvalidArgument
  | sh => Ok (ttab (removelast sh) (fun idx =>
            sqrt (rsum (map (fun d => (tget t (idx ++ [d]) * tget t (idx ++ [d]))%R) (seq 0 (last sh 0))))))
  end.

(** [tf.gather(t, ids)] along the first axis. *)
Definition tgather (t : ten) (ids : list nat) : result ten :=
  match tshape t with
  | n :: sh =>
    if forallb (fun i => i <? n) ids
    then Ok (ttab (length ids :: sh) (fun idx => match idx with
               | k :: r => tget t (nth k ids 0 :: r) | [] => 0%R end))
    else Err InvalidArgument
  | [] => Err InvalidArgument
  end.

(** [tf.math.unsorted_segment_*(t, ids, n)] along the first axis: the values of
    a segment, in order, reduced entry by entry; ids out of range are an error
    on the CPU and dropped on the GPU. *)
Definition tsegment (dev : device) (red : list R -> R) (t : ten) (ids : list nat) (n : nat) : result ten :=
  match tshape t with
  | m :: sh =>
    if negb (length ids =? m) then Err InvalidArgument else
    if (match dev with CPU => true | GPU => false end) && negb (forallb (fun i => i <? n) ids)
    then Err InvalidArgument
    else Ok (ttab (n :: sh) (fun idx => match idx with
               | s :: r => red (map (fun k => tget t (k :: r)) (filter (fun k => nth k ids 0 =? s) (seq 0 m)))
               | [] => 0%R end))
  | [] => Err InvalidArgument
  end.

(** A list of rows of [c] entries as a matrix, and back. *)
Definition of_rows (c : nat) (rows : list (list R)) : ten :=
  ttab [length rows; c] (fun idx => match idx with [i; j] => nth j (nth i rows []) 0%R | _ => 0%R end).
Definition to_rows (t : ten) : list (list R) :=
  match tshape t with
  | [n; c] => map (fun i => map (fun j => tget t [i; j]) (seq 0 c)) (seq 0 n)
  | _ => []
  end.
