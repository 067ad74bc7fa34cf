(** Neighborhoods of a grid with itself, as Poisson disk sampling uses them, with
    the rounding of float32 arithmetic. The sampling operation reads keys and
    rows and copies points, so that [sample_gpu] of GpuSampling.v needs no
    rounding for Poisson disk sampling. *)
From Coq Require Import List Arith ZArith NArith QArith Bool.
From Verif Require Import Tensor PointCloud Grid Neighbors Neighborhood Cuda GpuGrid GpuScan GpuNeighbors GpuSampling Float FloatGrid GpuFloat GpuFloatSearch.
Import ListNotations.
Local Open Scope nat_scope.

(** Neighborhood.py:218-255 __init__ without a second cloud, as [mk_nbh_gpu] of
    GpuSampling.v; the radii are converted to float32 (224-227), which
    [find_neighbors_gpu32] does here. *)
Definition mk_nbh_gpu32 (fused : bool) (active : kernel -> nat) (warp : nat) (time : N) (g : grid) (radius : list Q) (k : nat) (P : nbh -> Prop) : Prop :=
  let radii := bcast (dim (gcloud g)) (map f32 radius) in
  exists c, sorted_cloud g = Ok c /\
    find_neighbors_gpu32 fused active warp time g c radius k (fun ends nbs =>
      exists l, original_ids g nbs = Ok l /\
        P (Nbh g true c radii k (Ranges [length (bids c)] ends) nbs l)).
