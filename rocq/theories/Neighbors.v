(** Model of the neighbor searches find_neighbors_tf and find_neighbors_no_grid
    (pylib/pc/custom_ops/custom_ops_tf.py:118-260). *)
From Coq Require Import List Arith ZArith QArith Qround Lia Bool.
From Verif Require Import Tensor PointCloud Grid.
Import ListNotations.
Local Open Scope Z_scope.

Fixpoint mapM {A B} (f : A -> result B) (l : list A) : result (list B) :=
  match l with
  | [] => Ok []
  | a :: l' => b <- f a ;; r <- mapM f l' ;; Ok (b :: r)
  end.

Definition Qltb (x y : Q) : bool := negb (Qle_bool y x).

(** [tf.linalg.norm(p - q) < r] and [<= r], on squares (there is no exact
    square root of rationals): norm < r iff 0 < r and norm^2 < r^2. *)
Definition norm_lt (p q : point) (r : Q) : bool := Qltb 0 r && Qltb (sq_dist p q) (r * r).
Definition norm_le (p q : point) (r : Q) : bool := Qle_bool 0 r && Qle_bool (sq_dist p q) (r * r).

(** custom_ops_tf.py:173-184: the nine adjacent 2D cells. *)
Definition nb_offsets : list (Z * Z) :=
  [(-1,-1); (-1,0); (-1,1); (0,1); (0,0); (0,-1); (1,-1); (1,0); (1,1)].

(** custom_ops_tf.py:186-190 [tf.gather_nd(data_structure[cur_batch_id], ...)]:
    an index out of range is an error on CPU and yields zeros on GPU. *)
Definition ds_gather (dev : device) (ds : grid_ds) (b : nat) (x y : Z) : result (Z * Z) :=
  match ds_lookup ds b x y with
  | Some r => Ok r
  | None => match dev with CPU => Err InvalidArgument | GPU => Ok (0, 0) end
  end.

(** [tf.range(s, e)] for [0 <= s <= e]. *)
Definition zrange (s e : Z) : list nat := seq (Z.to_nat s) (Z.to_nat (e - s)).

(** custom_ops_tf.py:165-207: the loop over the centers. [i] is the loop
    counter and [cur] cur_neigh_range. A center is given with its batch id and
    its clipped cell in the first two dimensions. *)
Fixpoint nb_loop (dev : device) (g : grid) (ds : grid_ds) (r0 : Q) (n0 n1 : Z)
  (i : nat) (cur : Z) (cs : list ((point * nat) * (Z * Z)))
  : result (list Z * list (nat * nat)) :=
  match cs with
  | [] => Ok ([], [])
  | ((c, b), (c0, c1)) :: cs' =>
    if negb (Nat.ltb b (dsB ds)) then Err InvalidArgument else
    adj <- mapM (fun o => ds_gather dev ds b (clip n0 (c0 + fst o)) (clip n1 (c1 + snd o))) nb_offsets ;;
    let s := fold_right Z.min int32_max (map fst adj) in
    let e := fold_right Z.max int32_min (map snd adj) in
    let close_ids :=
      filter (fun j => norm_lt (nth j (gspts g) []) c r0 && Nat.eqb (nth j (gsbids g) 0%nat) b)
             (zrange s e) in
    let cur' := cur + Z.of_nat (length close_ids) in
    rest <- nb_loop dev g ds r0 n0 n1 (S i) cur' cs' ;;
    Ok (cur' :: fst rest, map (fun j => (j, i)) close_ids ++ snd rest)
  end.

(** An int tensor of neighbor ranges with its shape. *)
Record ranges := Ranges { rshape : list nat; rdata : list Z }.

(** custom_ops_tf.py:118-213 find_neighbors_tf; [max_neighbors] is accepted
    and ignored by the code. Returns the grid too, whose access structure may
    have been built. Not described: non-positive radii, centers of another
    dimension than the grid's points. [tf.concat] of no tensors is a
    ValueError (209); [tf.concat] of one scalar returns that scalar, so the
    ranges of a single center have shape [[]] (210). A center batch id out of
    range fails in 153-154 or in 188. *)
Definition find_neighbors_tf (dev : device) (g : grid) (centers : pc) (radii : list Q)
  (max_neighbors : nat) : grid * result (ranges * list (nat * nat)) :=
  let D := dim (gcloud g) in
  match bcast D radii with
  | r0 :: r1 :: _ =>
    if Qle_bool r0 0 || Qle_bool r1 0 || negb (Nat.eqb (dim centers) D) then (g, Err OutOfScope) else
    match gather (amin (gbox g)) (bids centers) with
    | Err e => (g, Err e)
    | Ok los =>
      let n0 := nth 0 (gnc g) 0 in
      let n1 := nth 1 (gnc g) 0 in
      let cells := map (fun x => (clip n0 (raw_cell (snd x) [r0; r1] (fst x) 0),
                                  clip n1 (raw_cell (snd x) [r0; r1] (fst x) 1)))
                       (combine (pts centers) los) in
      let '(g', rds) := get_DS dev g in
      (g', ds <- rds ;;
           out <- nb_loop dev g ds r0 n0 n1 0 0 (combine (combine (pts centers) (bids centers)) cells) ;;
           match fst out with
           | [] => Err ValueError
           | [x] => Ok (Ranges [] [x], snd out)
           | l => Ok (Ranges [length l] l, snd out)
           end)
    end
  | _ => (g, Err InvalidArgument)
  end.

(** custom_ops_tf.py:216-259 find_neighbors_no_grid. [tf.where] lists the true
    entries of the [centers x points] matrix in row-major order. *)
Definition find_neighbors_no_grid (dev : device) (p centers : pc) (radius : Q)
  : result (ranges * list (nat * nat)) :=
  if negb (Nat.eqb (dim centers) (dim p)) then Err OutOfScope else
  let nbs := concat (map (fun ic =>
      map (fun j => (j, fst ic))
        (filter (fun j => norm_le (nth j (pts p) []) (fst (snd ic)) radius
                          && Nat.eqb (nth j (bids p) 0%nat) (snd (snd ic))) (seq 0 (length (pts p)))))
      (combine (seq 0 (length (pts centers))) (combine (pts centers) (bids centers)))) in
  let m := length (pts centers) in
  ends <- zseg_reduce dev Z.max int32_min (map Z.of_nat (seq 1 (length nbs)))
            (map (fun q => Z.of_nat (snd q)) nbs) (Z.of_nat m) ;;
  Ok (Ranges [m] ends, nbs).
