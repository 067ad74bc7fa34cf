(** The grid and the fallback neighbor search with the rounding of float32
    arithmetic (PointCloud.py:32-43, Grid.py:32-66,
    custom_ops/custom_ops_tf.py:21-53 and 118-213). Grid.v and Neighbors.v
    model the same code on exact coordinates with an arbitrary box margin.
    Every addition, subtraction, multiplication and division of float tensors
    is followed by [f32]; minimum, maximum, floor and ceiling of a float are
    exact. Overflow to infinity is not modelled. *)
From Coq Require Import List Arith ZArith QArith Qround Bool.
From Verif Require Import Tensor PointCloud Grid Neighbors Float.
Import ListNotations.
Local Open Scope Z_scope.

(** The literal 1e-9 of PointCloud.py:40 and 43, converted to float32. *)
Definition margin32 : Q := f32 (1 # 1000000000).

(** PointCloud.py:32-43 _AABB.__init__. *)
Definition make_aabb32 (dev : device) (p : pc) : result aabb :=
  mn <- unsorted_segment dev (red_min (dim p)) (pts p) (bids p) (bsize p) ;;
  mx <- unsorted_segment dev (red_max (dim p)) (pts p) (bids p) (bsize p) ;;
  Ok (AABB (map (map (fun x => f32 (x - margin32))%Q) mn)
           (map (map (fun x => f32 (x + margin32))%Q) mx) (bshape p)).

(** [(p - lo) / cell] in dimension [d] (custom_ops_tf.py:41-42, 155-156) and
    its floor (43, 157). *)
Definition quotient32 (lo cells p : point) (d : nat) : Q :=
  f32 (f32 (coord p d - coord lo d) / coord cells d).
Definition raw_cell32 (lo cells p : point) (d : nat) : Z := Qfloor (quotient32 lo cells p d).

(** custom_ops_tf.py:38-46. *)
Definition cell_ind32 (D : nat) (lo cells : point) (nc : list Z) (p : point) : list Z :=
  map (fun d => clip (nth d nc 0) (raw_cell32 lo cells p d)) (seq 0 D).

(** custom_ops_tf.py:21-53 compute_keys_tf. *)
Definition compute_keys32 (D : nat) (a : aabb) (nc : list Z) (cells : point)
  (pts : list point) (ids : list nat) : result (list Z) :=
  los <- gather (amin a) ids ;;
  Ok (map (fun x => key_of nc (snd x) (cell_ind32 D (snd (fst x)) cells nc (fst (fst x))))
          (combine (combine pts los) ids)).

(** Grid.py:44-49. *)
Definition num_cells32 (D : nat) (a : aabb) (cells : point) : list Z :=
  map (fun d =>
    Z.max (fold_right Z.max int32_min
             (map (fun x => Qceiling (f32 (f32 (coord (snd x) d - coord (fst x) d) / coord cells d)))
                  (combine (amin a) (amax a)))) 1) (seq 0 D).

(** Grid.py:32-66 __init__; the cell sizes are cast to float32 (34-35). The box
    is computed anew: the one a cloud caches (PointCloud.py:243-247) has the
    same value. *)
Definition mk_grid32 (dev : device) (p : pc) (cell_sizes : list Q) : result grid :=
  let cells := bcast (dim p) (map f32 cell_sizes) in
  a <- make_aabb32 dev p ;;
  if negb (Nat.eqb (length cells) (dim p)) then Err InvalidArgument else
  if negb (forallb (fun c => negb (Qle_bool c 0)) cells) then Err OutOfScope else
  let nc := num_cells32 (dim p) a cells in
  keys <- compute_keys32 (dim p) a nc cells (pts p) (bids p) ;;
  let si := argsort_desc keys in
  sk <- gather keys si ;;
  sp <- gather (pts p) si ;;
  sb <- gather (bids p) si ;;
  Ok (Grid p cells a nc keys si sk sp sb None).

(** custom_ops_tf.py:165-207, as [nb_loop] of Neighbors.v. The comparison of
    the computed distance with the radius (196-198) is the argument [test]:
    the order of the additions and the rounding of the square root are not
    described. *)
Fixpoint nb_loop32 (dev : device) (test : point -> point -> bool) (g : grid) (ds : grid_ds) (n0 n1 : Z)
  (i : nat) (cur : Z) (cs : list ((point * nat) * (Z * Z)))
  : result (list Z * list (nat * nat)) :=
  match cs with
  | [] => Ok ([], [])
  | ((c, b), (c0, c1)) :: cs' =>
    if negb (Nat.ltb b (dsB ds)) then Err InvalidArgument else
    adj <- mapM (fun o => ds_gather dev ds b (clip n0 (c0 + fst o)) (clip n1 (c1 + snd o))) nb_offsets ;;
    let s := fold_right Z.min int32_max (map fst adj) in
    let e := fold_right Z.max int32_min (map snd adj) in
    let close_ids :=
      filter (fun j => test (nth j (gspts g) []) c && Nat.eqb (nth j (gsbids g) 0%nat) b)
             (zrange s e) in
    let cur' := cur + Z.of_nat (length close_ids) in
    rest <- nb_loop32 dev test g ds n0 n1 (S i) cur' cs' ;;
    Ok (cur' :: fst rest, map (fun j => (j, i)) close_ids ++ snd rest)
  end.

(** custom_ops_tf.py:118-213 find_neighbors_tf, as in Neighbors.v. *)
Definition find_neighbors32 (dev : device) (test : point -> point -> bool) (g : grid) (centers : pc)
  (radii : list Q) : grid * result (ranges * list (nat * nat)) :=
  let D := dim (gcloud g) in
  match bcast D (map f32 radii) with
  | r0 :: r1 :: _ =>
    if Qle_bool r0 0 || Qle_bool r1 0 || negb (Nat.eqb (dim centers) D) then (g, Err OutOfScope) else
    match gather (amin (gbox g)) (bids centers) with
    | Err e => (g, Err e)
    | Ok los =>
      let n0 := nth 0 (gnc g) 0 in
      let n1 := nth 1 (gnc g) 0 in
      let cells := map (fun x => (clip n0 (raw_cell32 (snd x) [r0; r1] (fst x) 0),
                                  clip n1 (raw_cell32 (snd x) [r0; r1] (fst x) 1)))
                       (combine (pts centers) los) in
      let '(g', rds) := get_DS dev g in
      (g', ds <- rds ;;
           out <- nb_loop32 dev test g ds n0 n1 0 0 (combine (combine (pts centers) (bids centers)) cells) ;;
           match fst out with
           | [] => Err ValueError
           | [x] => Ok (Ranges [] [x], snd out)
           | l => Ok (Ranges [length l] l, snd out)
           end)
    end
  | _ => (g, Err InvalidArgument)
  end.
