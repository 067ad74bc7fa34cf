(** Poisson disk sampling with the fallback in float32 (C75)
    Generated by tools/gen_props.py from FloatSampleProofs.v: statements only. *)
From Coq Require Import String List Arith ZArith QArith Qround Qabs Lia Lqa Bool Permutation.
From Verif Require Import Tensor TensorFacts Spec PointCloud SpecCloud History PointCloudFacts QFacts CloudProofs
  Grid SpecGrid GridFacts Neighbors SpecNeighbors NeighborFacts NeighborProofs Neighborhood NeighborhoodFacts
  Sampling SpecSampling SamplingFacts SamplingProofs
  Float FloatFacts FloatGrid SpecFloat KeyGridFacts FloatGridFacts FloatProofs FloatSampling SpecFloatSampling.
From Verif Require Import FloatSampleProofs.
Import ListNotations.
Local Open Scope nat_scope.

(** C75, partial. Poisson disk sampling with the fallback, whose grid and search
    are computed in float32: [test] stands for the comparison of the computed
    distance of two points with the radius, which holds below [small] and does
    not hold from [large] on. With cells as large as the radius in the first two
    dimensions, no point in the cell beyond the last one, and [small] at most
    the radius reduced by a fraction of (number of cells + 2) / 2^22: for every
    random choice the sampling stops after at most as many draws as there are
    points, the points selected of one element are at least [small] apart, and
    every point is closer than [large] to a selected one of its element.
    Partial: two or more points, and the conditions of C54. *)
Theorem C75_sample_partial :
  forall test small large eps D rows ids B p cs g radii mode dev fuel draws,
    cloud GPU eps D rows ids B p -> float32_batch D rows ids -> mk_grid32 GPU p cs = Ok g -> 2 <= D ->
    (Z.of_nat (length ids) < 2 ^ 31 - 1)%Z -> (Z.of_nat B * product (gnc g) <= 2 ^ 31)%Z ->
    (forall lo i d, i < length ids -> d < D -> lower_corner32 D rows ids (nth i ids 0) lo ->
       Qfloor (position32 (nth d lo 0%Q) (nth d (gcells g) 0%Q) (xc rows i d)) <> nth d (gnc g) 0%Z) ->
    (forall d, (d < 2)%nat -> nth d (all_dims D (map f32 radii)) 0 == nth d (gcells g) 0)%Q ->
    (forall d, (d < 2)%nat -> pow2 (-100) <= nth d (gcells g) 0)%Q ->
    (0 < small)%Q -> (forall d, (d < 2)%nat -> small <= safe_radius (nth d (gnc g) 0%Z) (nth d (gcells g) 0))%Q ->
    decides D test small large rows ->
    2 <= length ids -> length ids <= fuel -> means mode poisson_names ->
    exists n q sel, snd (mk_nbh (search32 test) g radii None 0) = Ok n /\
      sample dev fuel draws n mode = Some (Ok (q, Some sel)) /\
      poisson_between D small large rows ids sel /\
      cloud GPU eps D (map (fun i => nth i rows []) sel) (map (fun i => nth i ids 0) sel) B q.
Proof. exact C75_sample_partial_proof. Qed.
Print Assumptions C75_sample_partial.

Example C75_sample_partial_ex :
  exists g, cloud GPU 0 2 ex54_rows ex54_ids 1 ex54_cloud /\ float32_batch 2 ex54_rows ex54_ids /\ mk_grid32 GPU ex54_cloud [7 # 10] = Ok g /\
    (forall lo i d, i < length ex54_ids -> d < 2 -> lower_corner32 2 ex54_rows ex54_ids (nth i ex54_ids 0) lo ->
       Qfloor (position32 (nth d lo 0%Q) (nth d (gcells g) 0%Q) (xc ex54_rows i d)) <> nth d (gnc g) 0%Z) /\
    (forall d, (d < 2)%nat -> nth d (all_dims 2 (map f32 [7 # 10])) 0 == nth d (gcells g) 0)%Q /\
    (forall d, (d < 2)%nat -> pow2 (-100) <= nth d (gcells g) 0)%Q /\
    (forall d, (d < 2)%nat -> (69 # 100) <= safe_radius (nth d (gnc g) 0%Z) (nth d (gcells g) 0))%Q /\
    decides 2 ex54_test (69 # 100) (f32 (7 # 10)) ex54_rows /\
    exists n q, snd (mk_nbh (search32 ex54_test) g [7 # 10] None 0) = Ok n /\
      sample GPU 8 (fun k => k) n "poisson" = Some (Ok (q, Some [7; 5; 2; 6; 1; 0])).
Proof. exact C75_sample_partial_ex_proof. Qed.

(** C75, refuted without the condition on the cells. Two points of float32
    coordinates for which the sampling never stops, whatever is drawn: the
    margin of the box has no effect, and the point on the far side is not found
    in its own neighborhood, although distances are compared exactly. *)
Theorem C75_never_ends_refuted :
  exists rows ids p r g n,
    cloud GPU 0 2 rows ids 1 p /\ float32_batch 2 rows ids /\ is_float32 r /\ (0 < r)%Q /\ mk_grid32 GPU p [r] = Ok g /\
    snd (mk_nbh (search32 (fun a b => norm_lt a b r)) g [r] None 0) = Ok n /\
    forall dev fuel draws mode, means mode poisson_names -> sample dev fuel draws n mode = None.
Proof. exact C75_never_ends_refuted_proof. Qed.
Print Assumptions C75_never_ends_refuted.
