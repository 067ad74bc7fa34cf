(** Properties of the uniform grid (C11-C13).
    Generated by tools/gen_props.py from GridProofs.v: statements only. *)
From Coq Require Import List Arith ZArith QArith Qround Lia Lqa Bool Permutation Sorted.
From Verif Require Import Tensor TensorFacts Spec PointCloud SpecCloud History PointCloudFacts QFacts
  CloudProofs Grid SpecGrid GridFacts.
From Verif Require Import GridProofs.
Import ListNotations.
Local Open Scope Z_scope.

(** C11. The grid of any cloud has the smallest sufficient number of cells per
    dimension, every point lies in one of these cells, and, as long as the
    number of cells over the whole batch fits into 32 bit, the key of a point
    is the row-major number of its batch element and cell: keys are in
    [[0, batch_size * number of cells)] and are equal exactly for points of
    the same element in the same cell. [fits] excludes the boundary case
    refuted below. *)
Theorem C11_grid_keys_partial :
  forall dev eps D rows ids B cs p,
    cloud dev eps D rows ids B p -> valid_sizes D cs ->
    (0 <= eps)%Q -> (eps <= flt_max)%Q -> fits eps D (all_dims D cs) rows ids ->
    exists g lo, mk_grid dev eps p cs = Ok g /\
      length (gnc g) = D /\ length (gkeys g) = length ids /\
      (forall d, (d < D)%nat -> cells_needed eps (all_dims D cs) rows ids d (nth d (gnc g) 0)) /\
      (forall b, In b ids -> lower_corner D eps rows ids b (lo b)) /\
      let c i d := cell (lo (nth i ids 0%nat)) (all_dims D cs) (nth i rows []) d in
      (forall i d, (i < length ids)%nat -> (d < D)%nat -> 0 <= c i d < nth d (gnc g) 0) /\
      (Z.of_nat B * product (gnc g) <= 2 ^ 31 ->
       forall i, (i < length ids)%nat ->
         nth i (gkeys g) 0 = Z.of_nat (nth i ids 0%nat) * product (gnc g)
            + total (map (fun d => c i d * product (skipn (S d) (gnc g))) (seq 0 D)) /\
         0 <= nth i (gkeys g) 0 < Z.of_nat B * product (gnc g) /\
         forall j, (j < length ids)%nat ->
           (nth i (gkeys g) 0 = nth j (gkeys g) 0 <->
            nth i ids 0%nat = nth j ids 0%nat /\ forall d, (d < D)%nat -> c i d = c j d)).
Proof. exact C11_grid_keys_partial_proof. Qed.
Print Assumptions C11_grid_keys_partial.

Example C11_grid_keys_partial_ex :
  exists p g, init (P2 3 ex_pts) (Some ex_bids) None None = Ok p /\ mk_grid CPU 0 p [4#3] = Ok g /\
    ~ boundary_case 3 (all_dims 3 [4#3]) ex_pts ex_bids /\ gnc g = [3;2;2] /\
    gkeys g = [0; 2; 9; 2; 12].
Proof. exact C11_grid_keys_partial_ex_proof. Qed.

(** C11, boundary. With a margin that rounds to zero and an extent that is a
    multiple of the cell size, two points in different cells get the same
    key. *)
Theorem C11_boundary_refuted :
  exists (p : pc) (g : grid) (rows : list point) (ids : list nat) (cs : list Q) (lo : list Q),
    cloud CPU 0 2 rows ids 1 p /\ valid_sizes 2 cs /\ mk_grid CPU 0 p cs = Ok g /\
    lower_corner 2 0 rows ids 0 lo /\
    exists i j, (i < length ids)%nat /\ (j < length ids)%nat /\
      nth i ids 0%nat = nth j ids 0%nat /\
      cell lo (all_dims 2 cs) (nth i rows []) 0 <> cell lo (all_dims 2 cs) (nth j rows []) 0 /\
      nth i (gkeys g) 0 = nth j (gkeys g) 0.
Proof. exact C11_boundary_refuted_proof. Qed.
Print Assumptions C11_boundary_refuted.

(** C11, overflow. If the number of cells over the batch exceeds the 32 bit
    range, points of different batch elements get the same key, whatever the
    margin. *)
Theorem C11_overflow_refuted :
  exists (p : pc) (g : grid) (rows : list point) (ids : list nat) (cs : list Q) (eps : Q),
    (0 < eps)%Q /\ cloud CPU eps 2 rows ids 2 p /\ valid_sizes 2 cs /\ mk_grid CPU eps p cs = Ok g /\
    exists i j, (i < length ids)%nat /\ (j < length ids)%nat /\
      nth i ids 0%nat <> nth j ids 0%nat /\ nth i (gkeys g) 0 = nth j (gkeys g) 0.
Proof. exact C11_overflow_refuted_proof. Qed.
Print Assumptions C11_overflow_refuted.

(** C12. Sorted points, batch ids and keys are the original ones under one
    permutation; sorted keys descend, equal keys keep the original order. *)
Theorem C12_sorting :
  forall dev eps D rows ids B cs p,
    cloud dev eps D rows ids B p -> valid_sizes D cs ->
    exists g, mk_grid dev eps p cs = Ok g /\
      Permutation (gsidx g) (seq 0 (length ids)) /\
      length (gspts g) = length ids /\ length (gsbids g) = length ids /\ length (gskeys g) = length ids /\
      (forall j, (j < length ids)%nat ->
         nth j (gspts g) [] = nth (nth j (gsidx g) 0%nat) rows [] /\
         nth j (gsbids g) 0%nat = nth (nth j (gsidx g) 0%nat) ids 0%nat /\
         nth j (gskeys g) 0 = nth (nth j (gsidx g) 0%nat) (gkeys g) 0) /\
      (forall j k, (j < k)%nat -> (k < length ids)%nat ->
         nth k (gskeys g) 0 <= nth j (gskeys g) 0 /\
         (nth k (gskeys g) 0 = nth j (gskeys g) 0 -> (nth j (gsidx g) 0 < nth k (gsidx g) 0)%nat)).
Proof. exact C12_sorting_proof. Qed.
Print Assumptions C12_sorting.

Example C12_sorting_ex :
  exists p g, init (P2 3 ex_pts) (Some ex_bids) None None = Ok p /\ mk_grid CPU 0 p [4#3] = Ok g /\
    gsidx g = [4;2;1;3;0]%nat /\ gskeys g = [12;9;2;2;0].
Proof. exact C12_sorting_ex_proof. Qed.

(** C13. In at least two dimensions, the access structure of the grid of any
    cloud (below 2^31 points and cells) gives for every batch element and
    every pair of first cell coordinates the range of exactly the sorted points
    of that element with these cell coordinates. Repeated calls return the
    same structure. *)
Theorem C13_access_partial :
  forall dev eps D rows ids B cs p,
    cloud dev eps D rows ids B p -> valid_sizes D cs -> (2 <= D)%nat ->
    (0 <= eps)%Q -> fits eps D (all_dims D cs) rows ids ->
    Z.of_nat (length ids) < 2 ^ 31 - 1 ->
    exists g lo, mk_grid dev eps p cs = Ok g /\
      (forall b, In b ids -> lower_corner D eps rows ids b (lo b)) /\
      (Z.of_nat B * product (gnc g) <= 2 ^ 31 ->
       exists ds, snd (get_DS dev g) = Ok ds /\ snd (get_DS dev (fst (get_DS dev g))) = Ok ds /\
         forall b x y, 
           (((b < B)%nat /\ 0 <= x < nth 0 (gnc g) 0 /\ 0 <= y < nth 1 (gnc g) 0) ->
            exists s e, ds_lookup ds b x y = Some (s, e) /\ 0 <= s <= e /\ e <= Z.of_nat (length ids) /\
            forall j, (j < length ids)%nat ->
              (s <= Z.of_nat j < e <->
               nth j (gsbids g) 0%nat = b /\
               cell (lo b) (all_dims D cs) (nth j (gspts g) []) 0 = x /\
               cell (lo b) (all_dims D cs) (nth j (gspts g) []) 1 = y)) /\
           (~ ((b < B)%nat /\ 0 <= x < nth 0 (gnc g) 0 /\ 0 <= y < nth 1 (gnc g) 0) ->
            ds_lookup ds b x y = None)).
Proof. exact C13_access_partial_proof. Qed.
Print Assumptions C13_access_partial.

Example C13_access_partial_ex :
  exists p g ds, init (P2 3 ex_pts) (Some ex_bids) None None = Ok p /\ mk_grid CPU 0 p [4#3] = Ok g /\
    snd (get_DS CPU g) = Ok ds /\ gsidx g = [4;2;1;3;0]%nat /\
    ds_lookup ds 0 0 1 = Some (2, 4) /\ ds_lookup ds 1 0 0 = Some (0, 1) /\ ds_lookup ds 0 2 1 = Some (0, 0).
Proof. exact C13_access_partial_ex_proof. Qed.

(** C13, boundary. In the boundary case without effective margin the range of
    a cell contains a point of a different cell. *)
Theorem C13_boundary_refuted :
  exists (dev : device) (p : pc) (g : grid) (ds : grid_ds) (rows : list point) (ids : list nat) (cs : list Q) (lo : list Q),
    cloud dev 0 2 rows ids 1 p /\ valid_sizes 2 cs /\ mk_grid dev 0 p cs = Ok g /\
    snd (get_DS dev g) = Ok ds /\ lower_corner 2 0 rows ids 0 lo /\
    exists x y s e j, ds_lookup ds 0 x y = Some (s, e) /\ (j < length ids)%nat /\ s <= Z.of_nat j < e /\
      cell lo (all_dims 2 cs) (nth j (gspts g) []) 0 <> x.
Proof. exact C13_boundary_refuted_proof. Qed.
Print Assumptions C13_boundary_refuted.

(** C13. In one dimension the structure cannot be built. *)
Theorem C13_one_dimension :
  forall dev eps rows ids B cs p,
    cloud dev eps 1 rows ids B p -> valid_sizes 1 cs ->
    exists g e, mk_grid dev eps p cs = Ok g /\ snd (get_DS dev g) = Err e.
Proof. exact C13_one_dimension_proof. Qed.
Print Assumptions C13_one_dimension.

Example C13_one_dimension_ex :
  exists p g, init (P2 1 [[1#1];[2#1]]) (Some [0;0]%nat) None None = Ok p /\ mk_grid CPU 0 p [4#3] = Ok g /\
    snd (get_DS CPU g) = Err InvalidArgument.
Proof. exact C13_one_dimension_ex_proof. Qed.
