(** Properties of neighborhood objects (C19-C20).
    Generated by tools/gen_props.py from NeighborhoodProofs.v: statements only. *)
From Coq Require Import List Arith ZArith QArith Qround Lia Lqa Bool Permutation Sorted.
From Verif Require Import Tensor TensorFacts Spec PointCloud SpecCloud History PointCloudFacts QFacts
  Grid SpecGrid GridFacts GridProofs Neighbors SpecNeighbors NeighborFacts NeighborProofs Neighborhood
  NeighborhoodFacts.
From Verif Require Import NeighborhoodProofs.
Import ListNotations.
Local Open Scope nat_scope.

(** C19. The original ids of a neighborhood, and the output of
    compute_neighborhoods, index the caller's points: the pair (j, i) occurs
    (exactly once) iff point [j] of the caller's cloud is closer than the
    radius to center [i]. With [return_sorted_ids] the first column indexes
    the sorted points of the grid. *)
Theorem C19_original_ids_partial :
  forall eps D rows ids B cs g ceps crows cids CB cp radii max_neighbors,
    usable eps D rows ids B cs g -> cloud GPU ceps D crows cids CB cp ->
    cids <> [] -> Forall (fun b => b < B) cids -> radii_match D radii cs ->
    let r := nth 0 (all_dims D radii) 0%Q in
    (exists n, snd (mk_nbh (find_neighbors_tf GPU) g radii (Some cp) max_neighbors) = Ok n /\
       NoDup (norig n) /\ forall j i, In (j, i) (norig n) <-> near D r rows ids crows cids j i) /\
    (exists nbs rg, snd (compute_neighborhoods (find_neighbors_tf GPU) g radii (Some cp) max_neighbors false) = Ok (nbs, rg) /\
       NoDup nbs /\ forall j i, In (j, i) nbs <-> near D r rows ids crows cids j i) /\
    (exists nbs rg, snd (compute_neighborhoods (find_neighbors_tf GPU) g radii (Some cp) max_neighbors true) = Ok (nbs, rg) /\
       NoDup nbs /\ forall j i, In (j, i) nbs <-> near D r (gspts g) (gsbids g) crows cids j i).
Proof. exact C19_original_ids_partial_proof. Qed.
Print Assumptions C19_original_ids_partial.

(** The same when the centers are not given: they are the sorted points of the
    grid, so the second column indexes the sorted points. *)
Theorem C19_self_partial :
  forall eps D rows ids B cs g radii max_neighbors,
    usable eps D rows ids B cs g -> ids <> [] -> radii_match D radii cs ->
    let r := nth 0 (all_dims D radii) 0%Q in
    (exists n, snd (mk_nbh (find_neighbors_tf GPU) g radii None max_neighbors) = Ok n /\
       pts (nsampled n) = gspts g /\ bids (nsampled n) = gsbids g /\
       NoDup (norig n) /\ forall j i, In (j, i) (norig n) <-> near D r rows ids (gspts g) (gsbids g) j i) /\
    (exists nbs rg, snd (compute_neighborhoods (find_neighbors_tf GPU) g radii None max_neighbors false) = Ok (nbs, rg) /\
       NoDup nbs /\ forall j i, In (j, i) nbs <-> near D r rows ids (gspts g) (gsbids g) j i).
Proof. exact C19_self_partial_proof. Qed.
Print Assumptions C19_self_partial.

Example C19_original_ids_partial_ex :
  exists g n, grid_for GPU (1#1000) 2 exN_rows exN_ids 2 [1#1] g /\
    snd (mk_nbh (find_neighbors_tf GPU) g [1#1] (Some (seg 2 exN_centers exN_cids 2)) 0) = Ok n /\
    norig n = [(0,0);(1,1);(4,4)] /\ nnbs n = [(4,0);(5,1);(0,4)].
Proof. exact C19_original_ids_partial_ex_proof. Qed.

Example C19_self_partial_ex :
  exists g n, grid_for GPU (1#1000) 2 exN_rows exN_ids 2 [1#1] g /\ gsidx g = [4;5;3;2;0;1] /\
    snd (mk_nbh (find_neighbors_tf GPU) g [1#1] None 0) = Ok n /\
    norig n = [(4,0);(5,0);(4,1);(5,1);(3,2);(2,3);(0,4);(1,4);(0,5);(1,5)].
Proof. exact C19_self_partial_ex_proof. Qed.

(** C20. The transposed neighborhood relates the same pairs, exchanged. *)
Theorem C20_transpose_partial :
  forall eps D rows ids B cs g crows cids CB cp radii max_neighbors n,
    usable eps D rows ids B cs g -> cloud GPU eps D crows cids CB cp ->
    ids <> [] -> cids <> [] -> Forall (fun b => b < B) cids -> Forall (fun b => b < CB) ids ->
    radii_match D radii cs ->
    (forall g2, mk_grid GPU eps cp (all_dims D radii) = Ok g2 -> usable eps D crows cids CB (all_dims D radii) g2) ->
    valid_sizes D radii ->
    snd (mk_nbh (find_neighbors_tf GPU) g radii (Some cp) max_neighbors) = Ok n ->
    exists t, transpose GPU eps (find_neighbors_tf GPU) n = Ok t /\
      NoDup (norig t) /\ (forall j i, In (i, j) (norig t) <-> In (j, i) (norig n)).
Proof. exact C20_transpose_partial_proof. Qed.
Print Assumptions C20_transpose_partial.

Example C20_transpose_partial_ex :
  exists g n t, grid_for GPU (1#1000) 2 exN_rows exN_ids 2 [1#1] g /\
    snd (mk_nbh (find_neighbors_tf GPU) g [1#1] (Some (seg 2 exN_centers exN_cids 2)) 0) = Ok n /\
    transpose GPU (1#1000) (find_neighbors_tf GPU) n = Ok t /\
    norig n = [(0,0);(1,1);(4,4)] /\ norig t = [(0,0);(1,1);(4,4)].
Proof. exact C20_transpose_partial_ex_proof. Qed.

(** C20. The neighborhood of a cloud with itself is its own transposed
    neighborhood, and the relation on the sorted points is symmetric. *)
Theorem C20_self_partial :
  forall eps D rows ids B cs g radii max_neighbors n,
    usable eps D rows ids B cs g -> ids <> [] -> radii_match D radii cs ->
    snd (mk_nbh (find_neighbors_tf GPU) g radii None max_neighbors) = Ok n ->
    transpose GPU eps (find_neighbors_tf GPU) n = Ok n /\
    forall j i, In (i, j) (nnbs n) <-> In (j, i) (nnbs n).
Proof. exact C20_self_partial_proof. Qed.
Print Assumptions C20_self_partial.

Example C20_self_partial_ex :
  exists g n, grid_for GPU (1#1000) 2 exN_rows exN_ids 2 [1#1] g /\
    snd (mk_nbh (find_neighbors_tf GPU) g [1#1] None 0) = Ok n /\
    nnbs n = [(0,0);(1,0);(0,1);(1,1);(2,2);(3,3);(4,4);(5,4);(4,5);(5,5)].
Proof. exact C20_self_partial_ex_proof. Qed.

(** C20, the class _NeighborhoodTransposed, for any neighborhood whatever its
    search: its pairs are the exchanged pairs, grouped by center, its first
    column refers to the sorted points of its grid, and its ranges are right
    if every point is a neighbor of some center. *)
Theorem C20_reversed_partial :
  forall dev eps D crows cids CB n,
    nequal n = false -> cloud dev eps D crows cids CB (nsampled n) -> valid_sizes D (nradii n) ->
    (forall j i, In (j, i) (norig n) -> j < length (pts (gcloud (ngrid n))) /\ i < length cids) ->
    exists t, mk_transposed dev eps n = Ok (Some t) /\ nsampled t = gcloud (ngrid n) /\
      grid_for dev eps D crows cids CB (nradii n) (ngrid t) /\
      Permutation (norig t) (map (fun q => (snd q, fst q)) (norig n)) /\
      StronglySorted (fun a b => snd a <= snd b) (norig t) /\
      norig t = map (fun q => (nth (fst q) (gsidx (ngrid t)) 0, snd q)) (nnbs t) /\
      rshape (nranges t) = [length (pts (gcloud (ngrid n)))] /\
      ((forall j, j < length (pts (gcloud (ngrid n))) -> exists i, In (j, i) (norig n)) ->
       delimits (rdata (nranges t)) (nnbs t) (length (pts (gcloud (ngrid n))))).
Proof. exact C20_reversed_partial_proof. Qed.
Print Assumptions C20_reversed_partial.

Example C20_reversed_partial_ex :
  exists g n t, grid_for GPU (1#1000) 2 exN_rows exN_ids 2 [1#1] g /\
    snd (mk_nbh (find_neighbors_tf GPU) g [1#1] (Some (seg 2 exN_centers exN_cids 2)) 0) = Ok n /\
    mk_transposed GPU (1#1000) n = Ok (Some t) /\
    norig n = [(0,0);(1,1);(4,4)] /\ norig t = [(0,0);(1,1);(4,4)] /\
    rdata (nranges t) = [1; 2; int32_min; int32_min; 3; int32_min]%Z.
Proof. exact C20_reversed_partial_ex_proof. Qed.

(** C20. For the neighborhood of a cloud with itself _NeighborhoodTransposed
    gives an object without attributes. *)
Theorem C20_reversed_refuted :
  forall dev eps g radii max_neighbors n,
    snd (mk_nbh (find_neighbors_tf dev) g radii None max_neighbors) = Ok n ->
    mk_transposed dev eps n = Ok None.
Proof. exact C20_reversed_refuted_proof. Qed.
Print Assumptions C20_reversed_refuted.
