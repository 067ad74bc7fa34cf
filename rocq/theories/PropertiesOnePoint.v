(** Hierarchies of every batch (C25)
    Generated by tools/gen_props.py from OnePointProofs.v: statements only. *)
From Coq Require Import String List Arith ZArith QArith Reals Qreals Lia Lqa Bool Permutation.
From Verif Require Import Tensor TensorFacts Spec SpecText TextFacts PointCloud SpecCloud History PointCloudFacts QFacts CloudProofs Grid SpecGrid GridFacts GridProofs
  Neighbors SpecNeighbors NeighborFacts NeighborProofs Neighborhood NeighborhoodFacts
  Sampling SpecSampling SamplingFacts SamplingProofs Hierarchy SpecHierarchy HierarchyFacts HierarchyProofs.
From Verif Require Import OnePointProofs.
Import ListNotations.
Local Open Scope nat_scope.

(** C25, for every input: the constructor either returns a hierarchy as in
    C25_structure_partial whose Poisson levels above the last one have two or
    more points, or it fails because a level above the last one has one point. *)
Theorem C25_either :
  forall eps D rows ids B p sizes mode fuel draws,
    cloud GPU eps D rows ids B p -> buildable eps D rows ids B sizes fuel ->
    means mode poisson_names \/ means mode average_names ->
    (exists k data, mk_hierarchy GPU eps (find_neighbors_tf GPU) fuel draws p (map CVector sizes) mode = Some (Err InvalidArgument) /\
       means mode poisson_names /\ k < length sizes /\
       chain (next_level mode eps D) (firstn k (map (filled_with_first D) sizes)) ((rows, ids) :: data) /\
       length (snd (last data (rows, ids))) = 1) \/
    exists h data,
      mk_hierarchy GPU eps (find_neighbors_tf GPU) fuel draws p (map CVector sizes) mode = Some (Ok h) /\
      chain (next_level mode eps D) (map (filled_with_first D) sizes) ((rows, ids) :: data) /\
      Forall2 (fun b q => cloud GPU eps D (fst b) (snd b) B q /\ bshape q = bshape p) ((rows, ids) :: data) (hclouds h) /\
      hcells h = map (filled_with_first D) sizes /\
      (means mode poisson_names -> forall k b, k < length sizes -> nth_error ((rows, ids) :: data) k = Some b -> 2 <= length (snd b)).
Proof. exact C25_either_proof. Qed.
Print Assumptions C25_either.

Example C25_either_ex :
  let p := seg 2 exO_rows [0;0;0] 1 in
  cloud GPU (1#1000) 2 exO_rows [0;0;0] 1 p /\ means "poisson" poisson_names /\
  buildable (1#1000) 2 exO_rows [0;0;0] 1 [[3#1];[8#1];[1#1]] 3 /\ buildable (1#1000) 2 exO_rows [0;0;0] 1 [[3#1];[8#1]] 3 /\
  mk_hierarchy GPU (1#1000) (find_neighbors_tf GPU) 3 (fun _ k => k) p [CVector [3#1]; CVector [8#1]; CVector [1#1]] "poisson" = Some (Err InvalidArgument) /\
  exists h, mk_hierarchy GPU (1#1000) (find_neighbors_tf GPU) 3 (fun _ k => k) p [CVector [3#1]; CVector [8#1]] "poisson" = Some (Ok h) /\
    map (fun q => length (pts q)) (hclouds h) = [3; 2; 1].
Proof. exact C25_either_ex_proof. Qed.
