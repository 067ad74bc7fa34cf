(** The fallback search on CPU, exactly (C16).
    Generated by tools/gen_props.py from CpuSearchProofs.v: statements only. *)
From Coq Require Import List Arith ZArith QArith Qround Lia Lqa Bool Permutation Sorted.
From Verif Require Import Tensor TensorFacts Spec PointCloud SpecCloud History PointCloudFacts QFacts
  CloudProofs Grid SpecGrid GridFacts GridProofs Neighbors SpecNeighbors NeighborFacts NeighborProofs.
From Verif Require Import CpuSearchProofs.
Import ListNotations.
Local Open Scope Z_scope.

(** C16. On CPU the search returns a result exactly if no center lies in the last
    cell, or beyond, of the first two dimensions; otherwise it raises
    InvalidArgumentError. *)
Theorem C16_cpu_exactly :
  forall eps D rows ids B cs g ceps crows cids CB cp radii max_neighbors lo,
    grid_for CPU eps D rows ids B cs g -> valid_sizes D cs -> (2 <= D)%nat ->
    (0 <= eps)%Q -> fits eps D (all_dims D cs) rows ids ->
    Z.of_nat (length ids) < 2 ^ 31 - 1 -> Z.of_nat B * product (gnc g) <= 2 ^ 31 ->
    cloud CPU ceps D crows cids CB cp -> cids <> [] -> Forall (fun b => (b < B)%nat) cids ->
    (nth 0 (all_dims D radii) 0 == nth 0 (all_dims D cs) 0)%Q ->
    (nth 1 (all_dims D radii) 0 == nth 1 (all_dims D cs) 0)%Q ->
    (nth 0 (all_dims D radii) 0 <= nth 1 (all_dims D radii) 0)%Q ->
    (forall b, In b cids -> In b ids /\ lower_corner D eps rows ids b (lo b)) ->
    let in_last i d := nth d (gnc g) 0 - 1 <= Z.max 0 (cell (lo (nth i cids 0%nat)) (all_dims D cs) (nth i crows []) d) in
    ((exists out, snd (find_neighbors_tf CPU g cp radii max_neighbors) = Ok out) <->
       forall i d, (i < length cids)%nat -> (d < 2)%nat -> ~ in_last i d) /\
    (forall e, snd (find_neighbors_tf CPU g cp radii max_neighbors) = Err e ->
       e = InvalidArgument /\ exists i d, (i < length cids)%nat /\ (d < 2)%nat /\ in_last i d).
Proof. exact C16_cpu_exactly_proof. Qed.
Print Assumptions C16_cpu_exactly.

(** A search that succeeds (C16_cpu_partial_ex) and one with a center in the last
    cell. *)
Example C16_cpu_exactly_ex :
  exists g rg, grid_for CPU (1#1000) 2 ex16_rows [0;0;0]%nat 1 [1#1] g /\ gnc g = [6; 6] /\
    snd (find_neighbors_tf CPU g (seg 2 [[1#4;1#4];[2#1;2#1]] [0;0]%nat 1) [1#1] 0) = Ok (rg, [(1,0);(2,0)]%nat) /\
    snd (find_neighbors_tf CPU g (seg 2 [[1#4;1#4];[5#1;2#1]] [0;0]%nat 1) [1#1] 0) = Err InvalidArgument.
Proof. exact C16_cpu_exactly_ex_proof. Qed.
