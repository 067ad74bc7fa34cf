(** Properties of the neighbor search (C14-C18).
    Generated by tools/gen_props.py from NeighborProofs.v: statements only. *)
From Coq Require Import List Arith ZArith QArith Qround Lia Lqa Bool Permutation Sorted.
From Verif Require Import Tensor TensorFacts Spec PointCloud SpecCloud History PointCloudFacts QFacts
  CloudProofs Grid SpecGrid GridFacts GridProofs Neighbors SpecNeighbors NeighborFacts.
From Verif Require Import NeighborProofs.
Import ListNotations.
Local Open Scope Z_scope.

(** C14. Grid search on a device that reads zeros out of range (GPU). For a
    grid of any cloud and any centers, inside or outside its bounding box, in
    two or more dimensions, with the search radii equal to the cell sizes in
    the two dimensions of the access structure: every pair of a point and a
    center of the same element at distance below the (first) radius is
    returned exactly once, and nothing else. *)
Theorem C14_neighbors_partial :
  forall eps D rows ids B cs g ceps crows cids CB cp radii max_neighbors,
    grid_for GPU eps D rows ids B cs g -> valid_sizes D cs -> (2 <= D)%nat ->
    (0 <= eps)%Q -> fits eps D (all_dims D cs) rows ids ->
    Z.of_nat (length ids) < 2 ^ 31 - 1 -> Z.of_nat B * product (gnc g) <= 2 ^ 31 ->
    cloud GPU ceps D crows cids CB cp -> cids <> [] -> Forall (fun b => (b < B)%nat) cids ->
    (nth 0 (all_dims D radii) 0 == nth 0 (all_dims D cs) 0)%Q ->
    (nth 1 (all_dims D radii) 0 == nth 1 (all_dims D cs) 0)%Q ->
    (nth 0 (all_dims D radii) 0 <= nth 1 (all_dims D radii) 0)%Q ->
    exists rg nbs, snd (find_neighbors_tf GPU g cp radii max_neighbors) = Ok (rg, nbs) /\
      NoDup nbs /\
      forall j i, In (j, i) nbs <->
        near D (nth 0 (all_dims D radii) 0%Q) (gspts g) (gsbids g) crows cids j i.
Proof. exact C14_neighbors_partial_proof. Qed.
Print Assumptions C14_neighbors_partial.

Example C14_neighbors_partial_ex :
  exists g rg nbs,
    grid_for GPU (1#1000) 2 exN_rows exN_ids 2 [1#1] g /\ fits (1#1000) 2 (all_dims 2 [1#1]) exN_rows exN_ids /\
    gsidx g = [4; 5; 3; 2; 0; 1]%nat /\
    snd (find_neighbors_tf GPU g (seg 2 exN_centers exN_cids 2) [1#1] 0) = Ok (rg, nbs) /\
    nbs = [(4,0);(5,1);(0,4)]%nat /\ rdata rg = [1;2;2;2;3].
Proof. exact C14_neighbors_partial_ex_proof. Qed.

(** C14, boundary. Without effective margin, when an extent is a multiple of
    the cell size, a point may be missing even in its own neighborhood. *)
Theorem C14_boundary_refuted :
  exists rows ids cs g cp rg nbs j i,
    grid_for GPU 0 2 rows ids 1 cs g /\ valid_sizes 2 cs /\ cloud GPU 0 2 rows ids 1 cp /\
    snd (find_neighbors_tf GPU g cp cs 0) = Ok (rg, nbs) /\
    nth j (gsidx g) 0%nat = i /\
    near 2 (nth 0 cs 0%Q) (gspts g) (gsbids g) rows ids j i /\ ~ In (j, i) nbs.
Proof. exact C14_boundary_refuted_proof. Qed.
Print Assumptions C14_boundary_refuted.

(** C15, grid search. Whenever the search returns, whatever the radii and the
    device, the ranges delimit the rows of every center, including those
    without neighbors. The ranges have shape [[number of centers]] unless
    there is exactly one center. *)
Theorem C15_ranges_partial :
  forall dev eps D rows ids B cs g ceps crows cids CB cp radii max_neighbors rg nbs,
    grid_for dev eps D rows ids B cs g -> valid_sizes D cs ->
    cloud dev ceps D crows cids CB cp -> Forall (fun b => (b < B)%nat) cids ->
    Forall (fun r => (0 < r)%Q) (all_dims D radii) ->
    snd (find_neighbors_tf dev g cp radii max_neighbors) = Ok (rg, nbs) ->
    delimits (rdata rg) nbs (length cids) /\
    (length cids <> 1%nat -> rshape rg = [length cids]).
Proof. exact C15_ranges_partial_proof. Qed.
Print Assumptions C15_ranges_partial.

Example C15_ranges_partial_ex :
  exists g rg nbs,
    grid_for GPU (1#1000) 2 exN_rows exN_ids 2 [1#1] g /\
    snd (find_neighbors_tf GPU g (seg 2 exN_centers exN_cids 2) [1#1] 0) = Ok (rg, nbs) /\
    rshape rg = [5]%nat /\ rdata rg = [1;2;2;2;3] /\ nbs = [(4,0);(5,1);(0,4)]%nat.
Proof. exact C15_ranges_partial_ex_proof. Qed.

(** C15. For a single center the ranges are a scalar, not a tensor of shape
    [[1]]: whenever the search returns. *)
Theorem C15_single_center_refuted :
  forall dev eps D rows ids B cs g ceps c b CB cp radii max_neighbors rg nbs,
    grid_for dev eps D rows ids B cs g -> valid_sizes D cs ->
    cloud dev ceps D [c] [b] CB cp -> (b < B)%nat ->
    Forall (fun r => (0 < r)%Q) (all_dims D radii) ->
    snd (find_neighbors_tf dev g cp radii max_neighbors) = Ok (rg, nbs) ->
    rshape rg = [].
Proof. exact C15_single_center_refuted_proof. Qed.
Print Assumptions C15_single_center_refuted.

Example C15_single_center_refuted_ex :
  exists g rg, grid_for GPU (1#1000) 2 exN_rows exN_ids 2 [1#1] g /\
    snd (find_neighbors_tf GPU g (seg 2 [[1#1;1#1]] [0%nat] 2) [1#1] 0) = Ok (rg, [(5,0)]%nat).
Proof. exact C15_single_center_refuted_ex_proof. Qed.

(** C15, brute force search. The ranges are correct if every center has a
    neighbor. *)
Theorem C15_brute_force_partial :
  forall dev eps D rows ids B p ceps crows cids CB cp radius rg nbs,
    cloud dev eps D rows ids B p -> cloud dev ceps D crows cids CB cp -> (0 <= radius)%Q ->
    find_neighbors_no_grid dev p cp radius = Ok (rg, nbs) ->
    (forall i, (i < length cids)%nat -> exists j, within D radius rows ids crows cids j i) ->
    rshape rg = [length cids] /\ delimits (rdata rg) nbs (length cids).
Proof. exact C15_brute_force_partial_proof. Qed.
Print Assumptions C15_brute_force_partial.

Example C15_brute_force_partial_ex :
  exists rg, find_neighbors_no_grid CPU (seg 2 exN_rows exN_ids 2) (seg 2 exN_rows exN_ids 2) (1#1) = Ok (rg,
    [(0,0);(1,0);(0,1);(1,1);(2,2);(3,3);(4,4);(5,4);(4,5);(5,5)]%nat) /\ rdata rg = [2;4;5;6;8;10].
Proof. exact C15_brute_force_partial_ex_proof. Qed.

(** C15, brute force search. A center without neighbors gets the lowest int32
    as end of its range: the next center's rows are not delimited either. *)
Theorem C15_brute_force_refuted :
  exists rows ids crows cids radius rg nbs,
    find_neighbors_no_grid CPU (seg 2 rows ids 1) (seg 2 crows cids 1) radius = Ok (rg, nbs) /\
    cloud CPU 0 2 rows ids 1 (seg 2 rows ids 1) /\ cloud CPU 0 2 crows cids 1 (seg 2 crows cids 1) /\
    ~ delimits (rdata rg) nbs (length cids).
Proof. exact C15_brute_force_refuted_proof. Qed.
Print Assumptions C15_brute_force_refuted.

(** C16. On CPU the fallback search gives the same correct result as long as
    no center lies in the last cell, or beyond, of the first two dimensions. *)
Theorem C16_cpu_partial :
  forall eps D rows ids B cs g ceps crows cids CB cp radii max_neighbors lo,
    grid_for CPU eps D rows ids B cs g -> valid_sizes D cs -> (2 <= D)%nat ->
    (0 <= eps)%Q -> fits eps D (all_dims D cs) rows ids ->
    Z.of_nat (length ids) < 2 ^ 31 - 1 -> Z.of_nat B * product (gnc g) <= 2 ^ 31 ->
    cloud CPU ceps D crows cids CB cp -> cids <> [] -> Forall (fun b => (b < B)%nat) cids ->
    (nth 0 (all_dims D radii) 0 == nth 0 (all_dims D cs) 0)%Q ->
    (nth 1 (all_dims D radii) 0 == nth 1 (all_dims D cs) 0)%Q ->
    (nth 0 (all_dims D radii) 0 <= nth 1 (all_dims D radii) 0)%Q ->
    (forall b, In b cids -> In b ids /\ lower_corner D eps rows ids b (lo b)) ->
    (forall i d, (i < length cids)%nat -> (d < 2)%nat ->
       Z.max 0 (cell (lo (nth i cids 0%nat)) (all_dims D cs) (nth i crows []) d) < nth d (gnc g) 0 - 1) ->
    exists rg nbs, snd (find_neighbors_tf CPU g cp radii max_neighbors) = Ok (rg, nbs) /\
      NoDup nbs /\
      forall j i, In (j, i) nbs <->
        near D (nth 0 (all_dims D radii) 0%Q) (gspts g) (gsbids g) crows cids j i.
Proof. exact C16_cpu_partial_proof. Qed.
Print Assumptions C16_cpu_partial.

Example C16_cpu_partial_ex :
  exists g rg, grid_for CPU (1#1000) 2 ex16_rows [0;0;0]%nat 1 [1#1] g /\
    snd (find_neighbors_tf CPU g (seg 2 [[1#4;1#4];[2#1;2#1]] [0;0]%nat 1) [1#1] 0) = Ok (rg, [(1,0);(2,0)]%nat).
Proof. exact C16_cpu_partial_ex_proof. Qed.

(** C16. Without effective margin the CPU fallback fails for the neighborhood
    of any non-empty cloud with itself, whatever the cell size. *)
Theorem C16_cpu_refuted :
  forall D rows ids B cs g cp radii max_neighbors,
    grid_for CPU 0 D rows ids B cs g -> valid_sizes D cs -> (2 <= D)%nat -> ids <> [] ->
    cloud CPU 0 D (gspts g) (gsbids g) B cp ->
    (nth 0 (all_dims D radii) 0 == nth 0 (all_dims D cs) 0)%Q ->
    (nth 1 (all_dims D radii) 0 == nth 1 (all_dims D cs) 0)%Q ->
    snd (find_neighbors_tf CPU g cp radii max_neighbors) = Err InvalidArgument.
Proof. exact C16_cpu_refuted_proof. Qed.
Print Assumptions C16_cpu_refuted.

Example C16_cpu_refuted_ex :
  exists g, grid_for CPU 0 2 ex16_rows [0;0;0]%nat 1 [3#2] g /\
    snd (find_neighbors_tf CPU g (seg 2 (gspts g) (gsbids g) 1) [3#2] 0) = Err InvalidArgument.
Proof. exact C16_cpu_refuted_ex_proof. Qed.

(** C17. For any radii, everything the fallback search returns is correct with
    respect to the first radius: no pair twice, same element, closer than it. *)
Theorem C17_sound_partial :
  forall dev eps D rows ids B cs g ceps crows cids CB cp radii max_neighbors rg nbs,
    grid_for dev eps D rows ids B cs g -> valid_sizes D cs ->
    cloud dev ceps D crows cids CB cp -> Forall (fun b => (b < B)%nat) cids ->
    Forall (fun r => (0 < r)%Q) (all_dims D radii) ->
    snd (find_neighbors_tf dev g cp radii max_neighbors) = Ok (rg, nbs) ->
    NoDup nbs /\
    forall j i, In (j, i) nbs -> near D (nth 0 (all_dims D radii) 0%Q) (gspts g) (gsbids g) crows cids j i.
Proof. exact C17_sound_partial_proof. Qed.
Print Assumptions C17_sound_partial.

Example C17_sound_partial_ex :
  exists g rg, grid_for GPU (1#1000) 2 ex17_rows [0;0;0]%nat 1 [2#1] g /\
    snd (find_neighbors_tf GPU g (seg 2 [[1#4;1#4];[1#2;0#1]] [0;0]%nat 1) [1#1] 0) = Ok (rg, [(2,0);(2,1)]%nat).
Proof. exact C17_sound_partial_ex_proof. Qed.

(** C17. With a radius below the cell size the fallback search misses
    neighbors: the cell of a center is computed with the radii and looked up
    in an access structure built with the cell sizes. *)
Theorem C17_small_radius_refuted :
  exists rows ids cs r g crows cids cp rg nbs j i,
    grid_for GPU (1#1000) 2 rows ids 1 cs g /\ valid_sizes 2 cs /\
    fits (1#1000) 2 (all_dims 2 cs) rows ids /\
    (0 < r)%Q /\ Forall (fun c => (r < c)%Q) cs /\
    cloud GPU (1#1000) 2 crows cids 1 cp /\
    snd (find_neighbors_tf GPU g cp [r] 0) = Ok (rg, nbs) /\
    near 2 r (gspts g) (gsbids g) crows cids j i /\ ~ In (j, i) nbs.
Proof. exact C17_small_radius_refuted_proof. Qed.
Print Assumptions C17_small_radius_refuted.

(** C17. Per-axis radii: the fallback search compares distances with the
    first radius only, so a point inside the ellipsoid of the radii is
    missing. *)
Theorem C17_ellipsoid_refuted :
  exists rows ids radii g crows cids cp rg nbs j i,
    grid_for GPU (1#1000) 2 rows ids 1 radii g /\ valid_sizes 2 radii /\
    fits (1#1000) 2 (all_dims 2 radii) rows ids /\
    cloud GPU (1#1000) 2 crows cids 1 cp /\
    snd (find_neighbors_tf GPU g cp radii 0) = Ok (rg, nbs) /\
    inside_ellipsoid 2 radii (gspts g) (gsbids g) crows cids j i /\ ~ In (j, i) nbs.
Proof. exact C17_ellipsoid_refuted_proof. Qed.
Print Assumptions C17_ellipsoid_refuted.

(** C18. The brute force search returns each pair of points of the same
    element at distance at most the radius exactly once, and nothing else. *)
Theorem C18_brute_force :
  forall dev eps D rows ids B p ceps crows cids CB cp radius,
    cloud dev eps D rows ids B p -> cloud dev ceps D crows cids CB cp -> (0 <= radius)%Q ->
    exists rg nbs, find_neighbors_no_grid dev p cp radius = Ok (rg, nbs) /\
      NoDup nbs /\ forall j i, In (j, i) nbs <-> within D radius rows ids crows cids j i.
Proof. exact C18_brute_force_proof. Qed.
Print Assumptions C18_brute_force.

Example C18_brute_force_ex :
  exists rg, find_neighbors_no_grid CPU (seg 2 exN_rows exN_ids 2) (seg 2 exN_centers exN_cids 2) (1#1) =
    Ok (rg, [(0,0);(1,1);(2,2);(4,4)]%nat).
Proof. exact C18_brute_force_ex_proof. Qed.

(** C18. The grid search agrees with the brute force search, apart from pairs
    whose distance is exactly the radius (same conditions as C14). *)
Theorem C18_agreement_partial :
  forall eps D rows ids B cs g p ceps crows cids CB cp radii max_neighbors r,
    grid_for GPU eps D rows ids B cs g -> valid_sizes D cs -> (2 <= D)%nat ->
    (0 <= eps)%Q -> fits eps D (all_dims D cs) rows ids ->
    Z.of_nat (length ids) < 2 ^ 31 - 1 -> Z.of_nat B * product (gnc g) <= 2 ^ 31 ->
    cloud GPU ceps D crows cids CB cp -> cids <> [] -> Forall (fun b => (b < B)%nat) cids ->
    cloud GPU eps D rows ids B p ->
    all_dims D radii = repeat r D -> all_dims D cs = repeat r D ->
    exists rg nbs rg' nbs',
      snd (find_neighbors_tf GPU g cp radii max_neighbors) = Ok (rg, nbs) /\
      find_neighbors_no_grid GPU p cp r = Ok (rg', nbs') /\
      forall j i, (j < length ids)%nat -> (i < length cids)%nat ->
        ~ (dist2 D (nth j (gspts g) []) (nth i crows []) == r * r)%Q ->
        (In (j, i) nbs <-> In (nth j (gsidx g) 0%nat, i) nbs').
Proof. exact C18_agreement_partial_proof. Qed.
Print Assumptions C18_agreement_partial.

Example C18_agreement_partial_ex :
  exists g rg nbs rg' nbs',
    grid_for GPU (1#1000) 2 exN_rows exN_ids 2 [1#1] g /\
    snd (find_neighbors_tf GPU g (seg 2 exN_centers exN_cids 2) [1#1] 0) = Ok (rg, nbs) /\
    find_neighbors_no_grid GPU (seg 2 exN_rows exN_ids 2) (seg 2 exN_centers exN_cids 2) (1#1) = Ok (rg', nbs') /\
    map (fun q => (nth (fst q) (gsidx g) 0, snd q))%nat nbs = [(0,0);(1,1);(4,4)]%nat /\
    nbs' = [(0,0);(1,1);(2,2);(4,4)]%nat.
Proof. exact C18_agreement_partial_ex_proof. Qed.
