(** The CUDA operation that computes the keys of the grid, with the rounding of
    float32 arithmetic (grid_utils.h:63-73, compute_keys_kernels.cu.cc:40-117,
    custom_ops_wrapper.py:20-44, Grid.py:32-66). GpuGrid.v models the same code
    on exact coordinates. Overflow to infinity and the flushing of denormal
    numbers are not modelled. *)
From Coq Require Import List Arith ZArith QArith Qround Bool.
From Verif Require Import Tensor PointCloud Grid Cuda GpuGrid Float FloatGrid.
Import ListNotations.
Local Open Scope Z_scope.

(** grid_utils.h:70, one coordinate. The compiler may evaluate the product and
    the difference with one rounding (a fused multiply-add, the default of nvcc)
    or with two. *)
Definition gpu_position32 (fused : bool) (x inv sl : Q) : Q :=
  if fused then f32 (x * inv - sl) else f32 (f32 (x * inv) - sl).

(** grid_utils.h:63-73 compute_cell_gpu_funct. The cast to int32 saturates, which
    the bounds make invisible. *)
Definition gpu_cell32 (fused : bool) (D : nat) (sl inv : point) (nc : list Z) (p : point) : list Z :=
  map (fun d => Z.min (Z.max (Qfloor (gpu_position32 fused (coord p d) (coord inv d) (coord sl d))) 0) (nth d nc 0 - 1)) (seq 0 D).

(** compute_keys_kernels.cu.cc:40-71, as [compute_keys_body] of GpuGrid.v. *)
Definition compute_keys_body32 (fused : bool) (D : nat) (sl : list point) (nc : list Z) (inv : point)
  (pts : list point) (ids : list nat) (i : nat) : list (action (list Z)) :=
  [fun out =>
    obind (rd i ids) (fun b => obind (rd i pts) (fun p => obind (rd b sl) (fun lo =>
      wr i (gpu_key nc (gpu_cell32 fused D lo inv nc p) b) out)))].

(** compute_keys_ops.cpp:60-113, compute_keys_kernels.cu.cc:75-117. *)
Definition compute_keys_op32 (fused : bool) (active warp D : nat) (pts : list point) (ids : list nat) (sl : list point)
  (nc : list Z) (inv : point) (P : list Z -> Prop) : Prop :=
  supported D /\ length ids = length pts /\ Forall (fun lo => length lo = D) sl /\
  length nc = D /\ length inv = D /\
  forall out, length out = length pts ->
    let blocks := num_blocks active (2 * warp) (length pts) in
    launch blocks out
      (flat_kernel blocks (2 * warp) (length pts) (compute_keys_body32 fused D sl nc inv pts ids)) P.

(** custom_ops_wrapper.py:20-44 compute_keys: the lower corners are divided by
    the cell sizes and the cell sizes inverted in float32. *)
Definition compute_keys_gpu32 (fused : bool) (active warp D : nat) (a : aabb) (nc : list Z) (cells : point)
  (pts : list point) (ids : list nat) (P : list Z -> Prop) : Prop :=
  compute_keys_op32 fused active warp D pts ids
    (map (fun lo => map (fun d => f32 (coord lo d / coord cells d)) (seq 0 D)) (amin a)) nc (map (fun c => f32 (/ c)) cells) P.

(** Grid.py:32-66 __init__ with the CUDA operation, as [mk_grid32] of FloatGrid.v. *)
Definition mk_grid_gpu32 (fused : bool) (active warp : nat) (p : pc) (cell_sizes : list Q) (P : grid -> Prop) : Prop :=
  let cells := bcast (dim p) (map f32 cell_sizes) in
  exists a, make_aabb32 GPU p = Ok a /\ length cells = dim p /\ Forall (fun c => 0 < c)%Q cells /\
    let nc := num_cells32 (dim p) a cells in
    compute_keys_gpu32 fused active warp (dim p) a nc cells (pts p) (bids p) (fun keys =>
      let si := argsort_desc keys in
      exists sk sp sb, gather keys si = Ok sk /\ gather (pts p) si = Ok sp /\ gather (bids p) si = Ok sb /\
        P (Grid p cells a nc keys si sk sp sb None)).
