(** Model of the CUDA operations that build the grid
    (custom_ops/tfg_custom_ops/compute_keys, build_grid_ds, shared), of their
    Python wrappers and of the grid object built with them.

    An operation [op args P] is true if the checks of the operation pass and
    every execution of it ends, without a fault, in a result that satisfies
    [P]. *)
From Coq Require Import List Arith ZArith QArith Qround Lia Bool.
From Verif Require Import Tensor PointCloud Grid Cuda.
Import ListNotations.
Local Open Scope Z_scope.

(** grid_utils.h:63-73 compute_cell_gpu_funct: cell of a point. [sl] is the
    lower corner divided by the cell size, [inv] the inverse cell size. Casting
    a float beyond the int32 range is not modelled. *)
Definition gpu_cell (D : nat) (sl inv : point) (nc : list Z) (p : point) : list Z :=
  map (fun d => Z.min (Z.max (Qfloor (coord p d * coord inv d - coord sl d)) 0) (nth d nc 0 - 1)) (seq 0 D).

(** grid_utils.h:85-98 compute_key_gpu_funct: loop from the last dimension to
    the first with the accumulators [key] and [accumKey] (64 bit). *)
Definition gpu_key (nc cell : list Z) (b : nat) : Z :=
  let '(key, acc) := fold_right (fun cn st => (fst st + fst cn * snd st, snd st * snd cn)) (0, 1) (combine cell nc) in
  key + acc * Z.of_nat b.

(** grid_utils.h:108-122 compute_cell_from_key_gpu_funct: batch element and
    cell of a key, by the truncating division of C. *)
Definition gpu_cell_from_key (nc : list Z) (key : Z) : Z * list Z :=
  fold_right (fun n st => (Z.quot (fst st) n, Z.rem (fst st) n :: snd st)) (key, []) nc.

(** grid_utils.h:132-142 compute_ds_index_from_key_gpu_funct. *)
Definition gpu_ds_of_key (nc : list Z) (key : Z) : Z := Z.quot key (zprod (skipn 2 nc)).

(** grid_utils.h:153-160 compute_ds_index_from_cell_gpu_funct. *)
Definition gpu_ds_of_cell (nc : list Z) (b : Z) (cell : list Z) : Z :=
  b * nth 0 nc 0 * nth 1 nc 0 + nth 0 cell 0 * nth 1 nc 0 + nth 1 cell 0.

(** defines.hpp:25-26. *)
Definition supported (D : nat) : Prop := (2 <= D <= 6)%nat.

(** compute_keys_kernels.cu.cc:40-71, work of one loop iteration. *)
Definition compute_keys_body (D : nat) (sl : list point) (nc : list Z) (inv : point)
  (pts : list point) (ids : list nat) (i : nat) : list (action (list Z)) :=
  [fun out =>
    obind (rd i ids) (fun b => obind (rd i pts) (fun p => obind (rd b sl) (fun lo =>
      wr i (gpu_key nc (gpu_cell D lo inv nc p) b) out)))].

(** compute_keys_ops.cpp:60-113 and compute_keys_kernels.cu.cc:75-117; blocks
    of two warps. The output is not initialised. *)
Definition compute_keys_op (active warp D : nat) (pts : list point) (ids : list nat) (sl : list point)
  (nc : list Z) (inv : point) (P : list Z -> Prop) : Prop :=
  supported D /\ length ids = length pts /\ Forall (fun lo => length lo = D) sl /\
  length nc = D /\ length inv = D /\
  forall out, length out = length pts ->
    let blocks := num_blocks active (2 * warp) (length pts) in
    launch blocks out
      (flat_kernel blocks (2 * warp) (length pts) (compute_keys_body D sl nc inv pts ids)) P.

(** custom_ops_wrapper.py:20-44 compute_keys. *)
Definition compute_keys_gpu (active warp D : nat) (a : aabb) (nc : list Z) (cells : point)
  (pts : list point) (ids : list nat) (P : list Z -> Prop) : Prop :=
  compute_keys_op active warp D pts ids
    (map (fun lo => map (fun d => (coord lo d / coord cells d)%Q) (seq 0 D)) (amin a)) nc (map Qinv cells) P.

(** build_grid_ds_kernels.cu.cc:37-71, one loop iteration. The keys are only
    read, at indices between 0 and the number of points. A write to a negative
    index is a fault. *)
Definition ds_set_x (d v : Z) : action (list (Z * Z)) :=
  if d <? 0 then fun _ => None else atomic (Z.to_nat d) (fun e => (v, snd e)).
Definition ds_set_y (d v : Z) : action (list (Z * Z)) :=
  if d <? 0 then fun _ => None else atomic (Z.to_nat d) (fun e => (fst e, v)).
Definition build_grid_ds_body (nc : list Z) (keys : list Z) (i : nat) : list (action (list (Z * Z))) :=
  let d := gpu_ds_of_key nc (nth i keys 0) in
  (if (Nat.ltb 0 i) && negb (d =? gpu_ds_of_key nc (nth (i - 1) keys 0))
   then [ds_set_x d (Z.of_nat i)] else []) ++
  (if Nat.eqb (i + 1) (length keys) then [ds_set_y d (Z.of_nat (length keys))]
   else if negb (d =? gpu_ds_of_key nc (nth (i + 1) keys 0)) then [ds_set_y d (Z.of_nat (i + 1))] else []).

(** build_grid_ds_ops.cpp:50-103 and build_grid_ds_kernels.cu.cc:75-115: the
    structure is set to zero, then the kernel runs. The result is the list of
    the pairs in row-major order. *)
Definition build_grid_ds_gpu (active warp : nat) (keys nc : list Z) (B : nat)
  (P : list (Z * Z) -> Prop) : Prop :=
  (0 < B)%nat /\ supported (length nc) /\
  let blocks := num_blocks active (2 * warp) (length keys) in
  launch blocks (repeat (0, 0) (Z.to_nat (Z.of_nat B * nth 0 nc 0 * nth 1 nc 0)))
    (flat_kernel blocks (2 * warp) (length keys) (build_grid_ds_body nc keys)) P.

(** Grid.py:32-66 with the CUDA operations. *)
Definition mk_grid_gpu (active warp : nat) (eps : Q) (p : pc) (cell_sizes : list Q) (P : grid -> Prop) : Prop :=
  let cells := bcast (dim p) cell_sizes in
  let '(p', ra) := get_aabb GPU eps p in
  exists a, ra = Ok a /\ length cells = dim p /\ Forall (fun c => 0 < c)%Q cells /\
    let nc := num_cells (dim p) a cells in
    compute_keys_gpu active warp (dim p) a nc cells (pts p') (bids p') (fun keys =>
      let si := argsort_desc keys in
      exists sk sp sb, gather keys si = Ok sk /\ gather (pts p') si = Ok sp /\ gather (bids p') si = Ok sb /\
        P (Grid p' cells a nc keys si sk sp sb None)).

(** Grid.py:68-84 get_DS with the CUDA operation. *)
Definition get_DS_gpu (active warp : nat) (g : grid) (P : grid_ds -> Prop) : Prop :=
  match gds g with
  | Some d => P d
  | None =>
    build_grid_ds_gpu active warp (gskeys g) (gnc g) (bsize (gcloud g)) (fun r =>
      P (GridDS (bsize (gcloud g)) (nth 0 (gnc g) 0) (nth 1 (gnc g) 0) r))
  end.
