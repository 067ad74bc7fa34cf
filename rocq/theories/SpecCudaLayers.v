(** Specification vocabulary for the layers with the CUDA operations. *)
From Coq Require Import List Arith ZArith QArith Bool.
From Verif Require Import Tensor PointCloud Spec SpecCloud SpecGrid Grid Cuda GpuNeighbors.
Import ListNotations.
Local Open Scope nat_scope.

(** A device: every kernel has an active block, and the number of threads of
    the prefix sum is a multiple of two warps. *)
Record device_ok (active : kernel -> nat) (pactive bactive warp : nat) : Prop := {
  do_active : forall k, active k <> 0;
  do_pactive : 0 < pactive;
  do_bactive : 0 < bactive;
  do_warp : warp <> 0;
  do_div : exists q, 2 ^ 8 * 2 = q * (2 * warp) }.

(** The number of values up to which the prefix sum of the search has no race
    (C42). *)
Definition scan_limit (active : kernel -> nat) (warp : nat) : nat := 2 ^ 8 * 2 + active KScan * (2 * warp).

(** Clouds between which a layer with radius [r] can work with the CUDA
    operations: [pin] holds the points [rows], [pout] the centers [crows] of the
    same batch elements; two to six dimensions, and from four dimensions on at
    least three cells along the last axis (C41). Unlike [workable] there is no
    condition on the margin or on the number of cells. *)
Record cuda_workable (limit : nat) (eps : Q) (D : nat) (r : Q) (rows : list point) (ids : list nat) (pin : pc)
  (crows : list point) (cids : list nat) (pout : pc) : Prop := {
  cw_in : exists B, cloud GPU eps D rows ids B pin /\ Forall (fun b => b < B) cids;
  cw_out : exists ceps CB, cloud GPU ceps D crows cids CB pout;
  cw_dim : 2 <= D <= 6;
  cw_last : D <= 3 \/ ((0 <= eps)%Q /\ (eps <= flt_max)%Q /\
    exists i j, i < length ids /\ j < length ids /\ nth i ids 0 = nth j ids 0 /\
      ((2 # 1) * r < xc rows i (D - 1) - xc rows j (D - 1) + (2 # 1) * eps)%Q);
  cw_radius : (0 < r)%Q;
  cw_points : ids <> [];
  cw_centers : cids <> [] /\ length cids <= limit }.
