(** Cell average sampling with the CUDA operation in float32: the rounding of the
    averages. GpuSampling.v models the same code with exact averages; the kernels
    before the averages read keys only and need no rounding. *)
From Coq Require Import List Arith ZArith NArith QArith Bool.
From Verif Require Import Tensor PointCloud Grid Neighbors Neighborhood Sampling Cuda GpuGrid GpuNeighbors GpuSampling Float.
Import ListNotations.
Local Open Scope Z_scope.

(** sampling_avg_kernels.cu.cc:70-85: the coordinates are added one after the
    other, starting with zero, and divided by the number of points, which is
    converted to float32; every operation rounds. *)
Definition avg_point32 (D : nat) (rows : list point) : point :=
  map (fun d => f32 (fold_left (fun a r => f32 (a + coord r d)) rows 0 / f32 (inject_Z (Z.of_nat (length rows)))))%Q (seq 0 D).

(** sampling_avg_kernels.cu.cc:53-87, one iteration, as [avg_body] of
    GpuSampling.v. *)
Definition avg_body32 (D : nat) (nc keys : list Z) (ps : list point) (firsts : list nat) (i : nat) : list (action (list (point * Z))) :=
  [fun out =>
    obind (rd i firsts) (fun s => obind (rd s keys) (fun key =>
      if forallb (fun j => Nat.ltb j (length ps)) (cell_points keys s)
      then wr i (avg_point32 D (map (fun j => nth j ps []) (cell_points keys s)), Z.quot key (zprod nc)) out else None))].
(** sampling_avg_kernels.cu.cc:92-147. *)
Definition sampling_avg_gpu32 (active warp D : nat) (nc keys : list Z) (ps : list point) (firsts : list nat)
  (P : list (point * Z) -> Prop) : Prop :=
  let bs := (4 * warp)%nat in
  let blocks := num_blocks active bs (length firsts) in
  forall out, length out = length firsts ->
    launch blocks out (flat_kernel blocks bs (length firsts) (avg_body32 D nc keys ps firsts)) P.

(** sampling_ops.cpp:78-192 with mode 1; the indices, which are not initialised,
    are left out. *)
Definition sampling_average_op32 (active : skernel -> nat) (warp D : nat) (ps : list point) (ids : list nat) (keys nc : list Z)
  (ranges : list Z) (P : list point -> list Z -> Prop) : Prop :=
  supported D /\ length ids = length ps /\ length keys = length ps /\ length nc = D /\ length ranges = length ps /\
  count_unique_keys_gpu (active SCountKeys) warp keys (fun num =>
  store_unique_keys_gpu (active SStoreKeys) warp keys num (fun firsts =>
    sampling_avg_gpu32 (active SAverage) warp D nc keys ps firsts (fun out => P (map fst out) (map snd out)))).

(** sampling.py:123-150 sample with the CUDA operation and a name of the cell
    average; custom_ops_wrapper.py:108-133. *)
Definition sample_average_gpu32 (active : skernel -> nat) (warp : nat) (n : nbh) (P : pc -> Prop) : Prop :=
  let g := ngrid n in
  sampling_average_op32 active warp (dim (gcloud g)) (gspts g) (gsbids g) (gskeys g) (gnc g) (rdata (nranges n)) (fun ps bs =>
    exists bs', to_nats bs = Some bs' /\ exists q, sampled_cloud n ps bs' = Ok q /\ P q).
