(** Properties of point hierarchies.
    Generated by tools/gen_props.py from HierarchyProofs.v: statements only. *)
From Coq Require Import String Ascii List Arith ZArith QArith Qround Lia Lqa Bool Permutation Sorted.
From Verif Require Import Tensor TensorFacts Spec PointCloud SpecCloud History PointCloudFacts QFacts CloudProofs
  Grid SpecGrid GridFacts GridProofs Neighbors SpecNeighbors NeighborFacts NeighborProofs
  Neighborhood NeighborhoodFacts Sampling SpecSampling SamplingFacts SamplingProofs Hierarchy SpecHierarchy HierarchyFacts.
From Verif Require Import HierarchyProofs.
Import ListNotations.
Local Open Scope nat_scope.

(** C25. The hierarchy has one level more than there are cell sizes, level 0
    is the given cloud, every level keeps batch size and batch shape and is the
    Poisson sample respectively the cell average of the level above; between any
    two levels no element gains points or becomes empty, and with Poisson
    sampling the lower one is a subset of the upper one. *)
Theorem C25_hierarchy_partial :
  forall eps D rows ids B p sizes mode fuel draws,
    cloud GPU eps D rows ids B p -> buildable eps D rows ids B sizes fuel ->
    (means mode average_names \/ means mode poisson_names /\ exists a b, In a ids /\ In b ids /\ a <> b) ->
    exists h data,
      mk_hierarchy GPU eps (find_neighbors_tf GPU) fuel draws p (map CVector sizes) mode = Some (Ok h) /\
      h_len h = S (length sizes) /\
      chain (next_level mode eps D) (map (filled_with_first D) sizes) ((rows, ids) :: data) /\
      (forall i b, nth_error ((rows, ids) :: data) i = Some b ->
         exists q, h_getitem h (Z.of_nat i) = Ok q /\
           cloud GPU eps D (fst b) (snd b) B q /\ bshape q = bshape p) /\
      (forall i j b b', i <= j -> nth_error ((rows, ids) :: data) i = Some b ->
         nth_error ((rows, ids) :: data) j = Some b' ->
         thinned b b' /\ (means mode poisson_names -> subset_of b b')).
Proof. exact C25_hierarchy_partial_proof. Qed.
Print Assumptions C25_hierarchy_partial.

Example C25_hierarchy_partial_ex :
  cloud GPU (1#1000) 2 exN_rows exN_ids 2 (seg 2 exN_rows exN_ids 2) /\
  buildable (1#1000) 2 exN_rows exN_ids 2 [[1#1]; [4#1]] 6 /\
  (means "Poisson" poisson_names /\ exists a b, In a exN_ids /\ In b exN_ids /\ a <> b) /\
  exists h, mk_hierarchy GPU (1#1000) (find_neighbors_tf GPU) 6 (fun _ k => k) (seg 2 exN_rows exN_ids 2)
    [CVector [1#1]; CVector [4#1]] "Poisson" = Some (Ok h) /\
    map (fun q => length (pts q)) (hclouds h) = [6; 4; 2].
Proof. exact C25_hierarchy_partial_ex_proof. Qed.

(** C25, for every input: whenever the constructor returns it has this
    structure, it always terminates, and the only exception is the one of a
    Poisson level with a single point. *)
Theorem C25_structure_partial :
  forall eps D rows ids B p sizes mode fuel draws,
    cloud GPU eps D rows ids B p -> buildable eps D rows ids B sizes fuel ->
    means mode poisson_names \/ means mode average_names ->
    (mk_hierarchy GPU eps (find_neighbors_tf GPU) fuel draws p (map CVector sizes) mode = Some (Err InvalidArgument) /\
       means mode poisson_names /\ forall a b, In a ids -> In b ids -> a = b) \/
    exists h data,
      mk_hierarchy GPU eps (find_neighbors_tf GPU) fuel draws p (map CVector sizes) mode = Some (Ok h) /\
      chain (next_level mode eps D) (map (filled_with_first D) sizes) ((rows, ids) :: data) /\
      Forall2 (fun b q => cloud GPU eps D (fst b) (snd b) B q /\ bshape q = bshape p) ((rows, ids) :: data) (hclouds h) /\
      hcells h = map (filled_with_first D) sizes.
Proof. exact C25_structure_partial_proof. Qed.
Print Assumptions C25_structure_partial.

Example C25_structure_partial_ex :
  cloud GPU (1#1000) 2 exN_rows exN_ids 2 (seg 2 exN_rows exN_ids 2) /\
  buildable (1#1000) 2 exN_rows exN_ids 2 [[1#1]; [4#1]] 6 /\
  exists h, mk_hierarchy GPU (1#1000) (find_neighbors_tf GPU) 6 (fun _ k => k) (seg 2 exN_rows exN_ids 2)
    [CVector [1#1]; CVector [4#1]] "cell average" = Some (Ok h) /\
    map (fun q => length (pts q)) (hclouds h) = [6; 4; 2].
Proof. exact C25_structure_partial_ex_proof. Qed.

(** C25 refuted: if the points of a batch with one element lie within the first
    cell size of each other, a Poisson hierarchy with two or more levels cannot
    be built: the first level has one point and the second one fails. *)
Theorem C25_single_point_refuted :
  forall eps D rows ids B p s s2 sizes mode fuel draws,
    cloud GPU eps D rows ids B p -> buildable eps D rows ids B (s :: s2 :: sizes) fuel ->
    means mode poisson_names -> (forall a b, In a ids -> In b ids -> a = b) ->
    (forall i j, i < length ids -> j < length ids ->
       (dist2 D (nth i rows []) (nth j rows []) < nth 0 s 0 * nth 0 s 0)%Q) ->
    mk_hierarchy GPU eps (find_neighbors_tf GPU) fuel draws p (map CVector (s :: s2 :: sizes)) mode
      = Some (Err InvalidArgument).
Proof. exact C25_single_point_refuted_proof. Qed.
Print Assumptions C25_single_point_refuted.

Example C25_single_point_refuted_ex :
  let rows := [[0#1;0#1];[1#2;1#2];[1#4;0#1]] in
  buildable (1#1000) 2 rows [0;0;0] 1 [[1#1];[1#1]] 3 /\
  (forall i j, i < 3 -> j < 3 -> (dist2 2 (nth i rows []) (nth j rows []) < nth 0 [1#1] 0 * nth 0 [1#1] 0)%Q) /\
  mk_hierarchy GPU (1#1000) (find_neighbors_tf GPU) 3 (fun _ k => k) (seg 2 rows [0;0;0] 1)
    [CVector [1#1]; CVector [1#1]] "poisson" = Some (Err InvalidArgument).
Proof. exact C25_single_point_refuted_ex_proof. Qed.

(** C50. A hierarchy answers every query level by level: points of one
    element, sizes, padded layouts, and a change of the batch shape reaches every
    level or is rejected as a whole. *)
Theorem C50_queries_partial :
  forall pa ia bs sz D rows ids B p0 eps ops sizes mode fuel draws h,
    describes pa ia bs sz D rows ids B -> init pa ia bs sz = Ok p0 ->
    Forall (fun r => length r = D) rows -> all_nonempty B ids ->
    buildable eps D rows ids B sizes fuel ->
    means mode poisson_names \/ means mode average_names ->
    let p := run GPU eps p0 ops in
    mk_hierarchy GPU eps (find_neighbors_tf GPU) fuel draws p (map CVector sizes) mode = Some (Ok h) ->
    exists data, let levels := (rows, ids) :: data in
      chain (next_level mode eps D) (map (filled_with_first D) sizes) levels /\
      (forall b, b < B ->
         h_get_points_id h (IdInt (Z.of_nat b)) = Ok (map (fun l => element b (fst l) (snd l)) levels)) /\
      (exists ts, snd (h_get_sizes h) = Ok ts /\
         Forall2 (fun l t => ivals t = true_sizes B (snd l) /\ nprod (ishape t) = B /\
                             forall s, bshape p = Some s -> ishape t = s) levels ts) /\
      (forall m os, snd (h_get_points_all h m) = Ok os ->
         Forall2 (fun l o => nprod (pshape o) = B /\ prows o = padded_layout (repeat 0%Q D) (pV o) B (fst l) (snd l)) levels os) /\
      (ops = [] -> forall m, exists os, snd (h_get_points_all h m) = Ok os) /\
      (forall s, fold_right Nat.mul 1 s = B ->
         let h' := fst (h_set_batch_shape h (Some s)) in
         snd (h_set_batch_shape h (Some s)) = Ok tt /\
         snd (h_get_sizes h') = Ok (map (fun l => ITensor s (true_sizes B (snd l))) levels) /\
         forall idx, in_shape s idx ->
           h_get_points_id h' (IdMulti (map Z.of_nat idx))
             = Ok (map (fun l => element (row_major s idx) (fst l) (snd l)) levels)) /\
      (forall s, fold_right Nat.mul 1 s <> B -> h_set_batch_shape h (Some s) = (h, Err InvalidArgument)).
Proof. exact C50_queries_partial_proof. Qed.
Print Assumptions C50_queries_partial.

Example C50_queries_partial_ex :
  describes (P2 2 exN_rows) (Some exN_ids) (Some 2) None 2 exN_rows exN_ids 2 /\ all_nonempty 2 exN_ids /\
  Forall (fun r => length r = 2) exN_rows /\ buildable (1#1000) 2 exN_rows exN_ids 2 [[1#1]; [4#1]] 6 /\
  exists h, mk_hierarchy GPU (1#1000) (find_neighbors_tf GPU) 6 (fun _ k => k) (seg 2 exN_rows exN_ids 2)
    [CVector [1#1]; CVector [4#1]] "cell_average" = Some (Ok h) /\
    snd (h_get_sizes h) = Ok [ITensor [2] [4;2]; ITensor [2] [3;1]; ITensor [2] [1;1]].
Proof. exact C50_queries_partial_ex_proof. Qed.

(** C50 refuted: with an empty element the sizes cannot be queried, the
    sampled levels have lost the element. *)
Theorem C50_empty_element_refuted :
  exists p h, init (PN 2 (Padded [3] 2 [[0#1;0#1];[4#1;4#1];[0#1;0#1];[0#1;0#1];[1#1;1#1];[1#1;3#1]])) None None (Some (ITensor [3] [2;0;2])) = Ok p /\
    snd (get_sizes p) = Ok (ITensor [3] [2;0;2]) /\
    mk_hierarchy GPU (1#1000) (find_neighbors_tf GPU) 4 (fun _ k => k) p [CVector [1#1]] "cell_average" = Some (Ok h) /\
    snd (h_get_sizes h) = Err InvalidArgument.
Proof. exact C50_empty_element_refuted_proof. Qed.
Print Assumptions C50_empty_element_refuted.

(** C26, for one size or one size per dimension: every level uses the given
    sizes followed by copies of the last one. *)
Theorem C26_cell_sizes_partial :
  forall eps D rows ids B p sizes mode fuel draws h,
    cloud GPU eps D rows ids B p -> buildable eps D rows ids B sizes fuel ->
    means mode poisson_names \/ means mode average_names ->
    Forall (fun l => length l = 1 \/ length l = D) sizes ->
    mk_hierarchy GPU eps (find_neighbors_tf GPU) fuel draws p (map CVector sizes) mode = Some (Ok h) ->
    hcells h = map (filled_with_last D) sizes.
Proof. exact C26_cell_sizes_partial_proof. Qed.
Print Assumptions C26_cell_sizes_partial.

Example C26_cell_sizes_partial_ex :
  buildable (1#1000) 2 exN_rows exN_ids 2 [[1#1]; [4#1]] 6 /\
  Forall (fun l : list Q => length l = 1 \/ length l = 2) [[1#1]; [4#1]] /\
  exists h, mk_hierarchy GPU (1#1000) (find_neighbors_tf GPU) 6 (fun _ k => k) (seg 2 exN_rows exN_ids 2)
    [CVector [1#1]; CVector [4#1]] "cell average" = Some (Ok h) /\ hcells h = [[1#1;1#1];[4#1;4#1]].
Proof. exact C26_cell_sizes_partial_ex_proof. Qed.

(** C26 refuted: with some but not all sizes given, the missing ones are copies
    of the first instead of the last one. *)
Theorem C26_last_value_refuted :
  forall eps D rows ids B p sizes mode fuel draws h i l,
    cloud GPU eps D rows ids B p -> buildable eps D rows ids B sizes fuel ->
    means mode poisson_names \/ means mode average_names ->
    mk_hierarchy GPU eps (find_neighbors_tf GPU) fuel draws p (map CVector sizes) mode = Some (Ok h) ->
    nth_error sizes i = Some l -> length l < D -> last l 0%Q <> nth 0 l 0%Q ->
    nth i (hcells h) [] = filled_with_first D l /\ nth i (hcells h) [] <> filled_with_last D l.
Proof. exact C26_last_value_refuted_proof. Qed.
Print Assumptions C26_last_value_refuted.

Example C26_last_value_refuted_ex :
  buildable (1#1000) 3 ex3_rows [0;0;1] 2 [[1#1;2#1]] 3 /\ length [1#1;2#1] < 3 /\
  exists h, mk_hierarchy GPU (1#1000) (find_neighbors_tf GPU) 3 (fun _ k => k) (seg 3 ex3_rows [0;0;1] 2)
    [CVector [1#1;2#1]] "poisson" = Some (Ok h) /\ hcells h = [[1#1;2#1;1#1]].
Proof. exact C26_last_value_refuted_ex_proof. Qed.

(** C26. More sizes than dimensions, and a bare number (allowed by the
    documentation), are rejected, on any device and for any search. *)
Theorem C26_rejected :
  forall dev eps search fuel draws D rows ids B p rest mode,
    cloud dev eps D rows ids B p ->
    (forall l, D < length l ->
       mk_hierarchy dev eps search fuel draws p (CVector l :: rest) mode = Some (Err InvalidArgument)) /\
    (forall c, mk_hierarchy dev eps search fuel draws p (CScalar c :: rest) mode = Some (Err InvalidArgument)).
Proof. exact C26_rejected_proof. Qed.
Print Assumptions C26_rejected.

Example C26_rejected_ex :
  cloud GPU (1#1000) 2 exN_rows exN_ids 2 (seg 2 exN_rows exN_ids 2) /\ 2 < length [1#1;1#1;1#1].
Proof. exact C26_rejected_ex_proof. Qed.

(** C49 refuted: the neighborhood of level [i] has the points of level [i] as
    centers, not those of level [i+1]; asking for all transposed
    neighborhoods raises AttributeError, and so does the last documented index
    with an IndexError. *)
Theorem C49_neighborhoods_refuted :
  forall eps D rows ids B p sizes mode fuel draws h,
    cloud GPU eps D rows ids B p -> buildable eps D rows ids B sizes fuel ->
    means mode poisson_names \/ means mode average_names ->
    mk_hierarchy GPU eps (find_neighbors_tf GPU) fuel draws p (map CVector sizes) mode = Some (Ok h) ->
    exists data, chain (next_level mode eps D) (map (filled_with_first D) sizes) ((rows, ids) :: data) /\
      (forall i, i < length sizes -> exists n up lo,
         h_get_neighborhood GPU eps (find_neighbors_tf GPU) h (Some (Z.of_nat i)) false = Ok [n] /\
         nth_error ((rows, ids) :: data) i = Some up /\ nth_error ((rows, ids) :: data) (S i) = Some lo /\
         reordered up (nsampled n) /\
         (length (snd lo) <> length (snd up) -> ~ reordered lo (nsampled n))) /\
      (sizes <> [] -> h_get_neighborhood GPU eps (find_neighbors_tf GPU) h None true = Err AttributeError) /\
      h_get_neighborhood GPU eps (find_neighbors_tf GPU) h (Some (Z.of_nat (h_len h) - 1)%Z) false = Err IndexError.
Proof. exact C49_neighborhoods_refuted_proof. Qed.
Print Assumptions C49_neighborhoods_refuted.

Example C49_neighborhoods_refuted_ex :
  buildable (1#1000) 2 exN_rows exN_ids 2 [[1#1]; [4#1]] 6 /\
  exists h n, mk_hierarchy GPU (1#1000) (find_neighbors_tf GPU) 6 (fun _ k => k) (seg 2 exN_rows exN_ids 2)
    [CVector [1#1]; CVector [4#1]] "Poisson" = Some (Ok h) /\
    h_get_neighborhood GPU (1#1000) (find_neighbors_tf GPU) h (Some 0%Z) false = Ok [n] /\
    length (pts (nsampled n)) = 6 /\ map (fun q => length (pts q)) (hclouds h) = [6; 4; 2].
Proof. exact C49_neighborhoods_refuted_ex_proof. Qed.
