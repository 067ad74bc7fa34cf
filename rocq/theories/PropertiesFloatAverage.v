(** Cell averages of the fallback in float32 (C76)
    Generated by tools/gen_props.py from FloatAverageProofs.v: statements only. *)
From Coq Require Import String List Arith ZArith QArith Qround Qabs Qreals Rdefinitions RIneq Lia Lqa Bool Permutation Sorted.
From Flocq Require Import Core.
From Verif Require Import Tensor TensorFacts Spec PointCloud SpecCloud History PointCloudFacts QFacts CloudProofs
  Grid SpecGrid GridFacts Neighbors SpecNeighbors NeighborFacts NeighborProofs Neighborhood NeighborhoodFacts
  Sampling SpecSampling SamplingFacts SamplingProofs
  Float FloatFacts FloatGrid SpecFloat KeyGridFacts FloatGridFacts FloatProofs FloatSampling SpecFloatSampling FloatSampleProofs
  FloatNorm FloatNormProofs FloatAverage SpecFloatAverage.
From Verif Require Import FloatAverageProofs.
Import ListNotations.
Local Open Scope Q_scope.
Local Open Scope nat_scope.

(** C76. Cell average sampling in float32, for every order in which the
    coordinates of a cell are added. *)
Theorem C76_averages_partial :
  forall test eps D rows ids B p cs g radii centers max_neighbors n avg,
    cloud GPU eps D rows ids B p -> float32_batch D rows ids -> mk_grid32 GPU p cs = Ok g ->
    (Z.of_nat (length ids) <= 2 ^ 23)%Z -> (Z.of_nat B * product (gnc g) <= 2 ^ 31)%Z ->
    (forall lo i d, i < length ids -> d < D -> lower_corner32 D rows ids (nth i ids 0) lo ->
       Qfloor (position32 (nth d lo 0%Q) (nth d (gcells g) 0%Q) (xc rows i d)) <> nth d (gnc g) 0%Z) ->
    snd (mk_nbh (search32 test) g radii centers max_neighbors) = Ok n -> averages32 D avg ->
    exists q, sample_average32 avg n = Ok q /\ cell_average32 D (gcells g) rows ids (pts q) (bids q) /\
      dim q = D /\ bsize q = bsize (nsampled n).
Proof. exact C76_averages_partial_proof. Qed.
Print Assumptions C76_averages_partial.

(** C76, cover. Every point is near a sampled point of its element, and every
    sampled point near a point: the coordinates differ by no more than the size
    of a cell, enlarged by the rounding errors of the cells and of the average. *)
Theorem C76_cover_partial :
  forall test eps D rows ids B p cs g radii centers max_neighbors n avg,
    cloud GPU eps D rows ids B p -> float32_batch D rows ids -> mk_grid32 GPU p cs = Ok g ->
    (Z.of_nat (length ids) <= 2 ^ 23)%Z -> (Z.of_nat B * product (gnc g) <= 2 ^ 31)%Z ->
    (forall lo i d, i < length ids -> d < D -> lower_corner32 D rows ids (nth i ids 0) lo ->
       Qfloor (position32 (nth d lo 0%Q) (nth d (gcells g) 0%Q) (xc rows i d)) <> nth d (gnc g) 0%Z) ->
    (forall d, d < D -> (pow2 (-100) <= nth d (gcells g) 0)%Q /\ (nth d (gnc g) 0 <= 2 ^ 21)%Z) ->
    snd (mk_nbh (search32 test) g radii centers max_neighbors) = Ok n -> averages32 D avg ->
    let near x i := forall d m, d < D -> (forall j, j < length ids -> (Qabs (xc rows j d) <= m)%Q) ->
      (Qabs (nth d x 0 - xc rows i d) <= nth d (gcells g) 0 * (1 + (inject_Z (nth d (gnc g) 0%Z) + 2) / 4194304) +
         m * (inject_Z (Z.of_nat (length ids)) / 8388608) + pow2 (-148))%Q in
    exists q, sample_average32 avg n = Ok q /\
      (forall i, i < length ids -> exists k, k < length (bids q) /\ nth k (bids q) 0 = nth i ids 0 /\ near (nth k (pts q) []) i) /\
      (forall k, k < length (bids q) -> exists i, i < length ids /\ nth k (bids q) 0 = nth i ids 0 /\ near (nth k (pts q) []) i).
Proof. exact C76_cover_partial_proof. Qed.
Print Assumptions C76_cover_partial.

(** Three points, two of them in one cell. *)
Example C76_averages_partial_ex :
  averages32 2 (fun _ => tail_mean 2) /\
  exists g, cloud GPU 0 2 ex75_rows [0; 0; 0] 1 (seg 2 ex75_rows [0; 0; 0] 1) /\ float32_batch 2 ex75_rows [0; 0; 0] /\
    mk_grid32 GPU (seg 2 ex75_rows [0; 0; 0] 1) [7%Q] = Ok g /\ (Z.of_nat 1 * product (gnc g) <= 2 ^ 31)%Z /\
    (forall lo i d, i < 3 -> d < 2 -> lower_corner32 2 ex75_rows [0; 0; 0] (nth i [0; 0; 0] 0) lo ->
       Qfloor (position32 (nth d lo 0%Q) (nth d (gcells g) 0%Q) (xc ex75_rows i d)) <> nth d (gnc g) 0%Z) /\
    exists n, snd (mk_nbh (search32 (fun a b => norm_lt a b 7)) g [7%Q] None 0) = Ok n /\
      sample_average32 (fun _ => tail_mean 2) n = Ok (seg 2 [[7; 9]; [5 # 2; 3]]%Q [0; 0] 1).
Proof. exact C76_averages_partial_ex_proof. Qed.

Example C76_cover_partial_ex :
  exists g, cloud GPU 0 2 ex75_rows [0; 0; 0] 1 (seg 2 ex75_rows [0; 0; 0] 1) /\ float32_batch 2 ex75_rows [0; 0; 0] /\
    mk_grid32 GPU (seg 2 ex75_rows [0; 0; 0] 1) [7%Q] = Ok g /\
    (forall d, d < 2 -> (pow2 (-100) <= nth d (gcells g) 0)%Q /\ (nth d (gnc g) 0 <= 2 ^ 21)%Z) /\
    exists n, snd (mk_nbh (search32 (fun a b => norm_lt a b 7)) g [7%Q] None 0) = Ok n /\ averages32 2 (fun _ => tail_mean 2).
Proof. exact C76_cover_partial_ex_proof. Qed.

Theorem C76_equal_refuted :
  exists rows ids p g n, cloud GPU 0 2 rows ids 1 p /\ float32_batch 2 rows ids /\ mk_grid32 GPU p [1%Q] = Ok g /\
    snd (mk_nbh (search32 (fun a b => norm_lt a b 1)) g [1%Q] None 0) = Ok n /\
    rows = repeat [ex76_x; ex76_x] 3 /\
    forall avg, averages32 2 avg -> exists q, sample_average32 avg n = Ok q /\ length (pts q) = 1 /\
      forall d, d < 2 -> ~ (nth d (nth 0 (pts q) []) 0 == ex76_x)%Q.
Proof. exact C76_equal_refuted_proof. Qed.
Print Assumptions C76_equal_refuted.

Example C76_equal_refuted_ex : is_float32 ex76_x /\ tail_mean 2 (repeat [ex76_x; ex76_x] 3) <> [ex76_x; ex76_x] /\ averages32 2 (fun _ => tail_mean 2).
Proof. exact C76_equal_refuted_ex_proof. Qed.
