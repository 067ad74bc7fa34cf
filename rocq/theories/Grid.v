(** Model of pylib/pc/Grid.py and of compute_keys_tf / build_grid_ds_tf
    (pylib/pc/custom_ops/custom_ops_tf.py:21-115). *)
From Coq Require Import List Arith ZArith QArith Qround Lia Bool.
From Verif Require Import Tensor PointCloud.
Import ListNotations.
Local Open Scope Z_scope.

(** int32 arithmetic: reduction of an integer to the representable range. *)
Definition wrap32 (z : Z) : Z := (z + 2 ^ 31) mod 2 ^ 32 - 2 ^ 31.
Definition int32_min : Z := - 2 ^ 31.
Definition int32_max : Z := 2 ^ 31 - 1.

(** [tf.minimum(tf.maximum(x, 0), hi)]. *)
Definition clip (hi x : Z) : Z := Z.min (Z.max x 0) hi.

Definition zprod (l : list Z) : Z := fold_right Z.mul 1 l.
Definition zsum (l : list Z) : Z := fold_right Z.add 0 l.

(** [tf.math.cumprod(x, reverse=True)]: entry d is the product from d on. *)
Definition cumprod_rev (l : list Z) : list Z :=
  map (fun d => zprod (skipn d l)) (seq 0 (length l)).

(** Broadcasting of a scalar or one-element tensor to [D] entries
    (Grid.py:36-37, custom_ops_tf.py:141-145, Neighborhood.py:225-227). A
    scalar is represented by a one-element list. *)
Definition bcast (D : nat) (l : list Q) : list Q :=
  match l with [x] => repeat x D | _ => l end.

(** [tf.cast(tf.math.floor((p - lo) / cell), tf.int32)] in dimension [d]
    (custom_ops_tf.py:41-43). Casting a float beyond the int32 range is not
    modelled. *)
Definition raw_cell (lo cells p : point) (d : nat) : Z :=
  Qfloor ((coord p d - coord lo d) / coord cells d).

(** custom_ops_tf.py:38-46: cell index of a point, clipped to [[0, num_cells]]
    (the upper bound is num_cells, not num_cells - 1). *)
Definition cell_ind (D : nat) (lo cells : point) (nc : list Z) (p : point) : list Z :=
  map (fun d => clip (nth d nc 0) (raw_cell lo cells p d)) (seq 0 D).

(** custom_ops_tf.py:47-53, key of one point in batch element [b]. The int32
    operations are ring operations, so one reduction at the end gives the
    same value as a reduction after every step. *)
Definition key_of (nc : list Z) (b : nat) (cell : list Z) : Z :=
  let mult := cumprod_rev nc ++ [1] in
  wrap32 (Z.of_nat b * nth 0 mult 0
          + zsum (map (fun d => nth d cell 0 * nth (S d) mult 0) (seq 0 (length nc)))).

(** custom_ops_tf.py:21-53 compute_keys_tf. [tf.gather] of the box corners by
    batch id is range checked. *)
Definition compute_keys (D : nat) (a : aabb) (nc : list Z) (cells : point)
  (pts : list point) (ids : list nat) : result (list Z) :=
  los <- gather (amin a) ids ;;
  Ok (map (fun x => key_of nc (snd x) (cell_ind D (snd (fst x)) cells nc (fst (fst x))))
          (combine (combine pts los) ids)).

(** Grid.py:44-49: number of cells per dimension, maximum over the batch,
    at least 1. *)
Definition num_cells (D : nat) (a : aabb) (cells : point) : list Z :=
  map (fun d =>
    Z.max (fold_right Z.max int32_min
             (map (fun x => Qceiling ((coord (snd x) d - coord (fst x) d) / coord cells d))
                  (combine (amin a) (amax a)))) 1) (seq 0 D).

(** The 2D access structure: [B], [num_cells[0]], [num_cells[1]] and the pairs
    (start, end) in row-major order. *)
Record grid_ds := GridDS { dsB : nat; ds0 : Z; ds1 : Z; dsranges : list (Z * Z) }.

(** [tf.math.unsorted_segment_min/max(values, ids, n)] on int32: empty
    segments give the largest / smallest int32; negative ids are dropped. *)
Definition zsegment (s : Z) (data ids : list Z) : list Z :=
  map fst (filter (fun p => snd p =? s) (combine data ids)).
Definition zseg_reduce (dev : device) (f : Z -> Z -> Z) (e : Z) (data ids : list Z) (n : Z)
  : result (list Z) :=
  if (match dev with CPU => negb (forallb (fun i => i <? n) ids) | GPU => false end)
  then Err InvalidArgument
  else Ok (map (fun s => fold_right f e (zsegment (Z.of_nat s) data ids)) (seq 0 (Z.to_nat n))).

(** custom_ops_tf.py:97-107: empty cells become (0, 0). *)
Definition ds_entry (num_keys : Z) (fl : Z * Z) : Z * Z :=
  let '(first, last) := fl in
  let '(first, last) := if first <? 0 then (0, 0) else (first, last) in
  if num_keys <? first then (0, 0) else (first, last).

(** custom_ops_tf.py:56-115 build_grid_ds_tf. The quotient of two int32 is
    computed in float64, where the floor of the rounded quotient is the exact
    integer quotient. *)
Definition build_grid_ds (dev : device) (keys : list Z) (nc : list Z) (B : nat)
  : result grid_ds :=
  match nc with
  | n0 :: n1 :: rest =>
    let keys32 := map wrap32 keys in
    let num_2D := Z.of_nat B * n0 * n1 in
    let per_2D := match rest with [] => 1 | _ => zprod rest end in
    let ds_ind := map (fun k => k / per_2D) keys32 in
    let indices := map Z.of_nat (seq 0 (length keys)) in
    firsts <- zseg_reduce dev Z.min int32_max indices ds_ind num_2D ;;
    lasts <- zseg_reduce dev Z.max int32_min (map Z.succ indices) ds_ind num_2D ;;
    Ok (GridDS B n0 n1 (map (ds_entry (Z.of_nat (length keys))) (combine firsts lasts)))
  | _ => Err InvalidArgument
  end.

(** Grid object, Grid.py:32-66. *)
Record grid := Grid {
  gcloud : pc;
  gcells : list Q;
  gbox : aabb;
  gnc : list Z;
  gkeys : list Z;
  gsidx : list nat;
  gskeys : list Z;
  gspts : list point;
  gsbids : list nat;
  gds : option grid_ds }.

(** [tf.argsort(keys, direction='DESCENDING')]. *)
Definition argsort_desc (keys : list Z) : list nat := argsort (fun a b => b <=? a) keys.

(** Grid.py:32-66 __init__. The [aabb] argument of the constructor is never
    read by the code. A cell size that is not positive is out of scope. *)
Definition mk_grid (dev : device) (eps : Q) (p : pc) (cell_sizes : list Q) : result grid :=
  let cells := bcast (dim p) cell_sizes in
  let '(p', ra) := get_aabb dev eps p in
  a <- ra ;;
  if negb (Nat.eqb (length cells) (dim p)) then Err InvalidArgument else
  if negb (forallb (fun c => negb (Qle_bool c 0)) cells) then Err OutOfScope else
  let nc := num_cells (dim p) a cells in
  keys <- compute_keys (dim p) a nc cells (pts p') (bids p') ;;
  let si := argsort_desc keys in
  sk <- gather keys si ;;
  sp <- gather (pts p') si ;;
  sb <- gather (bids p') si ;;
  Ok (Grid p' cells a nc keys si sk sp sb None).

(** Grid.py:68-84 get_DS, lazily built and cached. *)
Definition get_DS (dev : device) (g : grid) : grid * result grid_ds :=
  match gds g with
  | Some d => (g, Ok d)
  | None =>
    match build_grid_ds dev (gskeys g) (gnc g) (bsize (gcloud g)) with
    | Err e => (g, Err e)
    | Ok d => (Grid (gcloud g) (gcells g) (gbox g) (gnc g) (gkeys g) (gsidx g) (gskeys g)
                    (gspts g) (gsbids g) (Some d), Ok d)
    end
  end.

(** Entry [b, x, y] of the access structure; None when out of range. *)
Definition ds_lookup (d : grid_ds) (b : nat) (x y : Z) : option (Z * Z) :=
  if (Nat.ltb b (dsB d)) && (0 <=? x) && (x <? ds0 d) && (0 <=? y) && (y <? ds1 d)
  then nth_error (dsranges d) (Z.to_nat ((Z.of_nat b * ds0 d + x) * ds1 d + y))
  else None.
