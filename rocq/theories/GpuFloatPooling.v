(** Local pooling with the CUDA operations entirely in float32
    (pylib/pc/layers/Pooling.py): the grid, the search and the features. *)
From Coq Require Import List Arith ZArith NArith QArith Reals Bool.
From Verif Require Import Tensor PointCloud Grid Neighbors Neighborhood RTensor Layers Cuda GpuGrid GpuScan GpuNeighbors CudaLayers Float FloatGrid GpuFloat GpuFloatSearch.
Import ListNotations.
Local Open Scope nat_scope.

Section Code.
  (** As in CudaLayers.v; [fused] tells whether product and sum have one rounding. *)
  Context (fused : bool) (active : kernel -> nat) (warp : nat) (time : N).

  (** Neighborhood.py:218-255 __init__, as [neighborhood_gpu] of CudaLayers.v; the
      radii are converted to float32 (224-227), which [find_neighbors_gpu32] does
      here. *)
  Definition neighborhood_gpu32 (g : grid) (radius : list Q) (sample : option pc) (k : nat) (P : nbh -> Prop) : Prop :=
    let radii := bcast (dim (gcloud g)) radius in
    step (match sample with Some p => Ok p | None => sorted_cloud g end) (fun c =>
    find_neighbors_gpu32 fused active warp time g c radii k (fun ends nbs =>
    step (original_ids g nbs) (fun l =>
    P (Nbh g (match sample with None => true | Some _ => false end) c (map f32 radii) k (Ranges [length (bids c)] ends) nbs l)))).

  (** Pooling.py:103-166 _LocalPointPooling; the radius is converted to float32
      (140-141) by [mk_grid_gpu32] and [find_neighbors_gpu32]. *)
  Definition local_pooling_gpu32 (red : list R -> R) (features : feat) (pin pout : pc) (radius : option (list Q))
    (return_sorted return_padded : bool) (P : feat -> Prop) : Prop :=
    step (flat_features features pin) (fun f =>
    step (match radius with None => Err IndexError | Some l => Ok (bcast (dim pin) l) end) (fun radii =>
    mk_grid_gpu32 fused (active KKeys) warp pin radii (fun g =>
    neighborhood_gpu32 g radii (Some pout) 0 (fun n =>
    step (nb <- tgather f (map fst (norig n)) ;;
          o <- tsegment GPU red nb (map snd (norig n)) (length (pts pout)) ;;
          layer_output o pout return_sorted return_padded) P)))).
End Code.
