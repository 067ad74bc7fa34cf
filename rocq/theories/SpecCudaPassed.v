(** Specification vocabulary for CUDA layers with a neighborhood made before. *)
From Coq Require Import List Arith NArith QArith Reals.
From Verif Require Import Tensor PointCloud Grid Neighbors Neighborhood Pdf RTensor Layers Cuda GpuGrid GpuNeighbors CudaLayers.
Import ListNotations.

(** A grid with cell size [r] is made of [pin], then the neighborhood of the
    points [pout] with radius [r]; if [earlier] is a bandwidth, the densities are
    requested with it once. What is left is passed to [P]. *)
Definition shared_neighborhood (active : kernel -> nat) (pactive warp : nat) (time : N) (eps : Q) (D : nat) (pin pout : pc) (r : Q)
  (earlier : option R) (P : dnbh -> Prop) : Prop :=
  mk_grid_gpu (active KKeys) warp eps pin (repeat r D) (fun g =>
  neighborhood_gpu active warp time g (repeat r D) (Some pout) 0 (fun n =>
  match earlier with
  | None => P (DNbh n None)
  | Some b => get_pdf_gpu active pactive warp time (DNbh n None) (repeat b D) KConstant false (fun x _ => P x)
  end)).

(** The bandwidth of the first request. *)
Definition used_bandwidth (earlier : option R) (bandwidth : R) : R := match earlier with Some b => b | None => bandwidth end.
