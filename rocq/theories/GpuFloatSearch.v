(** The CUDA neighbor search with the rounding of float32 arithmetic
    (custom_ops/tfg_custom_ops/find_neighbors, custom_ops_wrapper.py:70-105).
    GpuNeighbors.v models the same code on exact coordinates; the kernels are
    the same except for the cell of a sample and the comparison of a distance
    with the radius. Overflow to infinity and the flushing of denormal numbers
    are not modelled. *)
From Coq Require Import List Arith ZArith NArith QArith Bool.
From Verif Require Import Tensor PointCloud Grid Neighbors Cuda GpuGrid GpuScan GpuNeighbors Float FloatGrid GpuFloat.
Import ListNotations.
Local Open Scope Z_scope.

(** math_helper.h:312-320 dot of a vector with itself; each product and sum
    has one rounding (a fused multiply-add) or two. *)
Definition dot32 (fused : bool) (xs : list Q) : Q :=
  fold_left (fun a x => if fused then f32 (a + x * x) else f32 (a + f32 (x * x)))%Q xs 0%Q.

(** count_neighbors_kernels.cu.cc:85 and store_neighbors_kernels.cu.cc:92, 162:
    [length((sample - point) * invRadii) < 1]. The square root is left out: a
    correctly rounded square root is less than 1 exactly if its argument is. *)
Definition near32 (fused : bool) (D : nat) (invr s p : point) : bool :=
  Qltb (dot32 fused (map (fun d => f32 (f32 (coord s d - coord p d) * coord invr d)) (seq 0 D))) 1.

(** find_neighbors_ops.cpp:80-250, as [find_neighbors_op] of GpuNeighbors.v. *)
Definition find_neighbors_op32 (fused : bool) (active : kernel -> nat) (warp D : nat) (time : N) (samples : list point) (sids : list nat)
  (pts : list point) (keys : list Z) (ds : list (Z * Z)) (nc : list Z) (sl : list point) (inv invr : point) (k : nat)
  (P : list Z -> list (nat * nat) -> Prop) : Prop :=
  supported D /\ length nc = D /\ Forall (fun p => length p = D) pts /\ Forall (fun lo => length lo = D) sl /\
  length inv = D /\ length invr = D /\ length sids = length samples /\ length keys = length pts /\
  compute_keys_op32 fused (active KKeys) warp D samples sids sl nc inv (fun skeys =>
    search_op active warp D time (near32 fused D invr) samples pts keys nc ds skeys k P).

(** custom_ops_wrapper.py:70-105 find_neighbors; the quotients and the inverses
    are rounded (101-103). *)
Definition find_neighbors_gpu32 (fused : bool) (active : kernel -> nat) (warp : nat) (time : N) (g : grid) (centers : pc)
  (radii : list Q) (k : nat) (P : list Z -> list (nat * nat) -> Prop) : Prop :=
  let D := dim (gcloud g) in
  get_DS_gpu (active KDs) warp g (fun ds =>
    find_neighbors_op32 fused active warp (dim centers) time (pts centers) (bids centers) (gspts g) (gskeys g) (dsranges ds) (gnc g)
      (map (fun lo => map (fun d => f32 (coord lo d / coord (gcells g) d)) (seq 0 D)) (amin (gbox g)))
      (map (fun c => f32 (/ c)) (gcells g)) (map (fun r => f32 (/ r)) (bcast D (map f32 radii))) k P).
