(** Search and sampling of the fallback with computed distances (C54, C75)
    Generated by tools/gen_props.py from FloatNormProofs.v: statements only. *)
From Coq Require Import String List Arith ZArith QArith Qround Qabs Lia Lqa Bool Permutation Reals Qreals Lra.
From Flocq Require Import Core.
From Verif Require Import Tensor TensorFacts Spec PointCloud SpecCloud History PointCloudFacts QFacts CloudProofs
  Grid SpecGrid GridFacts Neighbors SpecNeighbors NeighborFacts NeighborProofs Neighborhood NeighborhoodFacts
  Sampling SpecSampling SamplingFacts SamplingProofs
  Float FloatFacts FloatGrid SpecFloat KeyGridFacts FloatGridFacts FloatProofs FloatNorm FloatSampling SpecFloatSampling FloatSampleProofs.
From Coq Require Import Lqa.
From Verif Require Import FloatNormProofs.
Import ListNotations.
Local Open Scope Q_scope.

(** C54, search, with the distances that are computed: differences, squares, sums
    in any order and the square root are rounded to float32. In a grid of at
    most [m] cells along the first two axes whose cell size is the radius [r],
    and no point in the cell beyond the last one, the search returns only points
    of the same element within the radius enlarged by a fraction of
    (D + 12) / 2^24, and every such point within the radius reduced by a
    fraction of (m + D + 12) / 2^22. Partial: for these two radii. *)
Theorem C54_distances_partial :
  forall test eps D rows ids B p r g ceps crows cids CB cp m,
    cloud GPU eps D rows ids B p -> float32_batch D rows ids -> mk_grid32 GPU p [r] = Ok g -> (2 <= D <= 1024)%nat ->
    (Z.of_nat (length ids) < 2 ^ 31 - 1)%Z -> (Z.of_nat B * product (gnc g) <= 2 ^ 31)%Z ->
    (forall lo i d, (i < length ids)%nat -> (d < D)%nat -> lower_corner32 D rows ids (nth i ids 0%nat) lo ->
       Qfloor (position32 (nth d lo 0) (nth d (gcells g) 0) (xc rows i d)) <> nth d (gnc g) 0%Z) ->
    cloud GPU ceps D crows cids CB cp -> cids <> [] -> Forall (fun b => (b < B)%nat) cids ->
    is_float32 r -> pow2 (-50) <= r -> (nth 0 (gnc g) 0 <= m)%Z -> (nth 1 (gnc g) 0 <= m)%Z -> (0 <= m <= 2 ^ 21)%Z ->
    compares32 D r test rows crows ->
    let small := (1 - inject_Z (m + Z.of_nat D + 12) * (1 # 4194304)) * r in
    let large := (1 + inject_Z (Z.of_nat D + 12) * (1 # 16777216)) * r in
    exists rg nbs, snd (find_neighbors32 GPU test g cp [r]) = Ok (rg, nbs) /\
      delimits (rdata rg) nbs (length cids) /\ NoDup nbs /\
      (forall j i, In (j, i) nbs -> near D large (gspts g) (gsbids g) crows cids j i) /\
      (forall j i, near D small (gspts g) (gsbids g) crows cids j i -> In (j, i) nbs).
Proof. exact C54_distances_partial_proof. Qed.
Print Assumptions C54_distances_partial.

(** C75, with the distances that are computed, as in C54_distances_partial: the
    sampling stops after at most as many draws as points, the points selected of
    one element are at least the radius reduced by a fraction of
    (m + D + 12) / 2^22 apart, and every point is within the radius enlarged by a
    fraction of (D + 12) / 2^24 of a selected one. Partial: two or more points,
    no point in the cell beyond the last one, and these two radii. *)
Theorem C75_distances_partial :
  forall test eps D rows ids B p r g m mode dev fuel draws,
    cloud GPU eps D rows ids B p -> float32_batch D rows ids -> mk_grid32 GPU p [r] = Ok g -> (2 <= D <= 1024)%nat ->
    (Z.of_nat (length ids) < 2 ^ 31 - 1)%Z -> (Z.of_nat B * product (gnc g) <= 2 ^ 31)%Z ->
    (forall lo i d, (i < length ids)%nat -> (d < D)%nat -> lower_corner32 D rows ids (nth i ids 0%nat) lo ->
       Qfloor (position32 (nth d lo 0) (nth d (gcells g) 0) (xc rows i d)) <> nth d (gnc g) 0%Z) ->
    is_float32 r -> pow2 (-50) <= r -> (nth 0 (gnc g) 0 <= m)%Z -> (nth 1 (gnc g) 0 <= m)%Z -> (0 <= m <= 2 ^ 21)%Z ->
    compares32 D r test rows rows ->
    (2 <= length ids)%nat -> (length ids <= fuel)%nat -> means mode poisson_names ->
    let small := (1 - inject_Z (m + Z.of_nat D + 12) * (1 # 4194304)) * r in
    let large := (1 + inject_Z (Z.of_nat D + 12) * (1 # 16777216)) * r in
    exists n q sel, snd (mk_nbh (search32 test) g [r] None 0) = Ok n /\
      sample dev fuel draws n mode = Some (Ok (q, Some sel)) /\
      poisson_between D small large rows ids sel /\
      cloud GPU eps D (map (fun i => nth i rows []) sel) (map (fun i => nth i ids 0%nat) sel) B q.
Proof. exact C75_distances_partial_proof. Qed.
Print Assumptions C75_distances_partial.

(** C54, C75: for every cloud, centers and radius there is a comparison with
    distances computed in this way. *)
Theorem C54_comparison :
  forall D r rows crows, (1 <= D)%nat -> exists test, compares32 D r test rows crows.
Proof. exact C54_comparison_proof. Qed.
Print Assumptions C54_comparison.

Example C75_distances_partial_ex :
  exists g, cloud GPU 0 2 ex75_rows [0; 0; 0]%nat 1 (seg 2 ex75_rows [0; 0; 0]%nat 1) /\ float32_batch 2 ex75_rows [0; 0; 0]%nat /\
    mk_grid32 GPU (seg 2 ex75_rows [0; 0; 0]%nat 1) [7] = Ok g /\ gnc g = [1; 2]%Z /\
    (forall lo i d, (i < 3)%nat -> (d < 2)%nat -> lower_corner32 2 ex75_rows [0; 0; 0]%nat (nth i [0; 0; 0]%nat 0%nat) lo ->
       Qfloor (position32 (nth d lo 0) (nth d (gcells g) 0) (xc ex75_rows i d)) <> nth d (gnc g) 0%Z) /\
    is_float32 7 /\ pow2 (-50) <= 7 /\ compares32 2 7 (fun a b => norm_lt a b 7) ex75_rows ex75_rows /\
    exists n q, snd (mk_nbh (search32 (fun a b => norm_lt a b 7)) g [7] None 0) = Ok n /\
      sample GPU 3 (fun k => k) n "poisson" = Some (Ok (q, Some [2; 0]%nat)).
Proof. exact C75_distances_partial_ex_proof. Qed.

Example C54_comparison_ex : exists test, compares32 2 7 test ex75_rows [[1; 1]; [4; 5]] /\ test [7; 9] [1; 1] = false /\ test [4; 5] [1; 1] = true.
Proof. exact C54_comparison_ex_proof. Qed.

(** The hypotheses of C54_distances_partial: the same cloud and grid, searched
    from two of its points. *)
Example C54_distances_partial_ex :
  exists g test rg nbs, mk_grid32 GPU (seg 2 ex75_rows [0; 0; 0]%nat 1) [7] = Ok g /\ gspts g = [[7; 9]; [1; 1]; [4; 5]] /\
    compares32 2 7 test ex75_rows [[1; 1]; [4; 5]] /\
    snd (find_neighbors32 GPU test g (seg 2 [[1; 1]; [4; 5]] [0; 0]%nat 1) [7]) = Ok (rg, nbs) /\ nbs = [(1, 0); (2, 0); (0, 1); (1, 1); (2, 1)]%nat.
Proof. exact C54_distances_partial_ex_proof. Qed.
