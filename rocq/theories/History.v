(** Sequences of method calls on one PointCloud object (PointCloud.py:152-281,
    utils.py:75-94, layers/utils.py:22-49).  [dev] and [eps] as in
    PointCloud.v. *)
From Coq Require Import List Arith ZArith QArith Bool.
From Verif Require Import Tensor PointCloud.
Import ListNotations.

Inductive op :=
| OpPointsId (id : point_id)
| OpPointsAll (max_num_points : option nat)
| OpSizes
| OpUnflatten (max_num_points : option nat)
| OpApplyUnflatten (data : list point)
| OpAABB
| OpSetShape (shape : option (list nat))
| OpFlatten (features : padded point + list point)
| OpFormat (features : list point) (return_sorted return_padded : bool).

(** The object after one call; exceptions leave it in the state at the raise. *)
Definition step (dev : device) (eps : Q) (p : pc) (o : op) : pc :=
  match o with
  | OpPointsId _ => p
  | OpPointsAll m => fst (get_points_all p m)
  | OpSizes => fst (get_sizes p)
  | OpUnflatten m => fst (get_unflatten p m)
  | OpApplyUnflatten data =>
    let '(p', u) := get_unflatten p None in
    fst (apply_unflatten (zero_point (dim p')) p' u data)
  | OpAABB => fst (get_aabb dev eps p)
  | OpSetShape s => fst (set_batch_shape p s)
  | OpFlatten f => fst (flatten_features f p)
  | OpFormat f rs rp => fst (format_output (zero_point (dim p)) f p rs rp)
  end.

Definition run (dev : device) (eps : Q) (p : pc) (ops : list op) : pc :=
  fold_left (step dev eps) ops p.
