(** Pooling between the levels of a hierarchy (C57).
    Generated by tools/gen_props.py from CoverProofs.v: statements only. *)
From Coq Require Import String List Arith ZArith QArith Reals Qreals Lia Bool Permutation.
From Verif Require Import Tensor TensorFacts Spec PointCloud SpecCloud History PointCloudFacts QFacts CloudProofs
  Grid SpecGrid GridFacts GridProofs Neighbors SpecNeighbors NeighborFacts NeighborProofs
  Neighborhood NeighborhoodFacts Sampling SpecSampling SamplingFacts SamplingProofs Hierarchy SpecHierarchy HierarchyFacts
  HierarchyProofs Pdf SpecPdf RTensor Layers SpecLayers LayerFacts LayerProofs LevelFacts CoverFacts.
From Verif Require Import CoverProofs.
Import ListNotations.
Local Open Scope nat_scope.

(** C57. Between neighboring levels of a hierarchy, pooling with a radius not
    smaller than the cell sizes of the lower level misses nothing. With Poisson
    sampling, or if the radius is at least the diagonal of a cell, every point of
    the upper level contributes to some point of the lower one. With Poisson
    sampling, or in at most four dimensions, every point of the lower level has
    such contributions, so that every entry of the pooled features is the
    largest one respectively the mean of actual features. *)
Theorem C57_pooling_partial :
  forall eps D rows ids B p sizes mode fuel draws h,
    cloud GPU eps D rows ids B p -> buildable eps D rows ids B sizes fuel ->
    means mode poisson_names \/ means mode average_names ->
    mk_hierarchy GPU eps (find_neighbors_tf GPU) fuel draws p (map CVector sizes) mode = Some (Ok h) ->
    exists data, let levels := (rows, ids) :: data in
      chain (next_level mode eps D) (map (filled_with_first D) sizes) levels /\
      forall i s r up lo,
        nth_error sizes i = Some s -> nth_error levels i = Some up -> nth_error levels (S i) = Some lo ->
        Forall (fun c => (c <= r)%Q) s -> few_cells eps D (repeat r D) B (rows, ids) ->
        let near := near_points D r (fst up) (snd up) (fst lo) (snd lo) in
        exists pin pout,
          h_getitem h (Z.of_nat i) = Ok pin /\ h_getitem h (Z.of_nat (S i)) = Ok pout /\
          cloud GPU eps D (fst up) (snd up) B pin /\ cloud GPU eps D (fst lo) (snd lo) B pout /\
          (means mode poisson_names \/ (fold_right Qplus 0 (map (fun c => c * c) (filled_with_first D s)) <= r * r)%Q ->
             forall j, j < length (snd up) -> exists k, k < length (snd lo) /\ In j (near k)) /\
          (means mode poisson_names \/ D <= 4 ->
             (forall k, k < length (snd lo) -> near k <> []) /\
             forall feats C F return_sorted return_padded, given feats pin C F ->
               let values := fun k c => map (fun j => fval F j c) (near k) in
               exists mx av,
                 max_pooling GPU eps (find_neighbors_tf GPU) feats pin pout (Some [r]) return_sorted return_padded
                   = returned pout return_sorted return_padded C (table (length (snd lo)) C mx) /\
                 average_pooling GPU eps (find_neighbors_tf GPU) feats pin pout (Some [r]) return_sorted return_padded
                   = returned pout return_sorted return_padded C (table (length (snd lo)) C av) /\
                 forall k c, k < length (snd lo) -> c < C ->
                   (Forall (fun v => (- Q2R flt_max <= v)%R) (values k c) -> is_max (values k c) (mx k c)) /\
                   av k c = mean (values k c)).
Proof. exact C57_pooling_partial_proof. Qed.
Print Assumptions C57_pooling_partial.

Example C57_pooling_partial_ex :
  cloud GPU (1#1000) 2 exN_rows exN_ids 2 (seg 2 exN_rows exN_ids 2) /\
  buildable (1#1000) 2 exN_rows exN_ids 2 [[1#1]; [4#1]] 6 /\
  few_cells (1#1000) 2 (repeat (3#2) 2) 2 (exN_rows, exN_ids) /\
  (fold_right Qplus 0 (map (fun c => c * c) (filled_with_first 2 [1#1])) <= (3#2) * (3#2))%Q /\
  exists h pin pout, mk_hierarchy GPU (1#1000) (find_neighbors_tf GPU) 6 (fun _ k => k) (seg 2 exN_rows exN_ids 2)
    [CVector [1#1]; CVector [4#1]] "cell average" = Some (Ok h) /\
    h_getitem h 0 = Ok pin /\ h_getitem h 1 = Ok pout /\
    map (near_points 2 (3#2) (pts pin) (bids pin) (pts pout) (bids pout)) (seq 0 4) = [[4;5];[3];[2];[0;1]].
Proof. exact C57_pooling_partial_ex_proof. Qed.

Theorem C57_five_refuted :
  exists rows ids p h pin pout feats F,
    cloud GPU (1#1000) 5 rows ids 1 p /\ buildable (1#1000) 5 rows ids 1 [[1#1]] 2 /\
    mk_hierarchy GPU (1#1000) (find_neighbors_tf GPU) 2 (fun _ k => k) p [CVector [1#1]] "average" = Some (Ok h) /\
    h_getitem h 0 = Ok pin /\ h_getitem h 1 = Ok pout /\ length (pts pout) = 1 /\
    near_points 5 1 (pts pin) (bids pin) (pts pout) (bids pout) 0 = [] /\
    given feats pin 1 F /\ F = [[2%R]; [3%R]] /\
    max_pooling GPU (1#1000) (find_neighbors_tf GPU) feats pin pout (Some [1%Q]) false false
      = Ok (Feat 1 (inr [[(- Q2R flt_max)%R]])).
Proof. exact C57_five_refuted_proof. Qed.
Print Assumptions C57_five_refuted.

Theorem C57_lost_refuted :
  exists rows ids p h pin pout,
    cloud GPU (1#1000) 2 rows ids 1 p /\ buildable (1#1000) 2 rows ids 1 [[1#1]] 10 /\
    mk_hierarchy GPU (1#1000) (find_neighbors_tf GPU) 10 (fun _ k => k) p [CVector [1#1]] "average" = Some (Ok h) /\
    h_getitem h 0 = Ok pin /\ h_getitem h 1 = Ok pout /\ length (pts pin) = 10 /\
    forall k, k < length (pts pout) -> ~ In 9 (near_points 2 1 (pts pin) (bids pin) (pts pout) (bids pout) k).
Proof. exact C57_lost_refuted_proof. Qed.
Print Assumptions C57_lost_refuted.
