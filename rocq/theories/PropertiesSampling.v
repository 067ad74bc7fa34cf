(** Properties of point sampling (C21-C24).
    Generated by tools/gen_props.py from SamplingProofs.v: statements only. *)
From Coq Require Import String Ascii List Arith ZArith QArith Qround Lia Lqa Bool Permutation Sorted.
From Verif Require Import Tensor TensorFacts Spec PointCloud SpecCloud History PointCloudFacts QFacts
  Grid SpecGrid GridFacts GridProofs Neighbors SpecNeighbors NeighborFacts NeighborProofs
  Neighborhood NeighborhoodFacts Sampling SpecSampling SamplingFacts TextFacts.
From Verif Require Import SamplingProofs.
Import ListNotations.
Local Open Scope nat_scope.

(** C21. Poisson disk sampling of a cloud of two or more points, for every
    random choice: it stops after at most as many draws as there are points,
    the returned indices are a Poisson disk sample of radius [r], and the
    returned cloud consists of the points with these indices and their
    elements. *)
Theorem C21_poisson_partial :
  forall eps D rows ids B cs g radii max_neighbors n mode dev fuel draws,
    usable eps D rows ids B cs g -> radii_match D radii cs ->
    snd (mk_nbh (find_neighbors_tf GPU) g radii None max_neighbors) = Ok n ->
    2 <= length ids -> length ids <= fuel -> means mode poisson_names ->
    exists q sel, sample dev fuel draws n mode = Some (Ok (q, Some sel)) /\
      poisson_sample D (nth 0 (all_dims D radii) 0%Q) rows ids sel /\
      cloud GPU eps D (map (fun i => nth i rows []) sel) (map (fun i => nth i ids 0) sel) B q.
Proof. exact C21_poisson_partial_proof. Qed.
Print Assumptions C21_poisson_partial.

Example C21_poisson_partial_ex :
  exists g n q, usable (1#1000) 2 exN_rows exN_ids 2 [1#1] g /\ radii_match 2 [1#1] [1#1] /\
    snd (mk_nbh (find_neighbors_tf GPU) g [1#1] None 0) = Ok n /\
    sample GPU 6 (fun k => k) n "POISSON disk" = Some (Ok (q, Some [4;2;1;3])) /\
    sample GPU 6 (fun k => 5 - k) n "poisson_disk" = Some (Ok (seg 2 [[1#2;1#2];[1#2;1#2];[5#2;0#1];[3#1;3#1]] [0;1;0;0] 2, Some [1;4;2;3])).
Proof. exact C21_poisson_partial_ex_proof. Qed.

(** C21, single points. A cloud of one point cannot be Poisson sampled: the
    neighbor ranges are a scalar and the call fails. *)
Theorem C21_single_point_refuted :
  forall eps D p b B cs g radii max_neighbors n mode dev fuel draws,
    usable eps D [p] [b] B cs g -> radii_match D radii cs ->
    snd (mk_nbh (find_neighbors_tf GPU) g radii None max_neighbors) = Ok n ->
    means mode poisson_names ->
    sample dev fuel draws n mode = Some (Err InvalidArgument).
Proof. exact C21_single_point_refuted_proof. Qed.
Print Assumptions C21_single_point_refuted.

Example C21_single_point_refuted_ex :
  exists n, exS_nbh (1#1000) [[1#3;2#1]] [0] 1 [1#1] = Ok n /\ norig n = [(0, 0)].
Proof. exact C21_single_point_refuted_ex_proof. Qed.

(** C21, boundary. Without effective margin and with an extent that is a
    multiple of the cell size a point can be missing in its own neighborhood;
    the loop then never ends, whatever is drawn. *)
Theorem C21_boundary_refuted :
  exists rows ids r n, exS_nbh 0 rows ids 1 [r] = Ok n /\ (0 < r)%Q /\
    forall dev fuel draws, sample dev fuel draws n "poisson" = None.
Proof. exact C21_boundary_refuted_proof. Qed.
Print Assumptions C21_boundary_refuted.

(** C22. Cell average sampling, for the neighborhood of any sample in a grid
    that every point fits in and whose cells can be counted in 32 bit. *)
Theorem C22_cell_average_partial :
  forall gdev eps D rows ids B cs n mode dev fuel draws,
    grid_for gdev eps D rows ids B cs (ngrid n) -> valid_sizes D cs ->
    (0 <= eps)%Q -> fits eps D (all_dims D cs) rows ids ->
    (Z.of_nat B * product (gnc (ngrid n)) <= 2 ^ 31)%Z -> means mode average_names ->
    exists q, sample dev fuel draws n mode = Some (Ok (q, None)) /\
      cell_average eps D (all_dims D cs) rows ids (pts q) (bids q) /\
      dim q = D /\ bsize q = bsize (nsampled n).
Proof. exact C22_cell_average_partial_proof. Qed.
Print Assumptions C22_cell_average_partial.

Example C22_cell_average_partial_ex :
  exists g n q, usable (1#1000) 2 exN_rows exN_ids 2 [1#1] g /\
    snd (mk_nbh (find_neighbors_tf GPU) g [1#1] None 0) = Ok n /\
    sample GPU 0 (fun k => k) n "Cell Average" = Some (Ok (q, None)) /\
    pts q = [[28#40;28#40];[3#1;3#1];[5#2;0#1];[1#4;1#4]] /\ bids q = [1;0;0;0].
Proof. exact C22_cell_average_partial_ex_proof. Qed.

(** C22, boundary. Without effective margin, points of different elements can be
    averaged, so that an element with points has none afterwards. *)
Theorem C22_boundary_refuted :
  exists rows ids n q, exS_nbh 0 rows ids 2 [1#1] = Ok n /\
    (forall dev fuel draws, sample dev fuel draws n "average" = Some (Ok (q, None))) /\
    In 1 ids /\ ~ In 1 (bids q).
Proof. exact C22_boundary_refuted_proof. Qed.
Print Assumptions C22_boundary_refuted.

(** C23. The mode names of [sample] in any capitalisation; every other string
    is a KeyError (for any neighborhood). *)
Theorem C23_unknown_mode :
  forall dev fuel draws n mode,
    ~ means mode poisson_names -> ~ means mode average_names ->
    sample dev fuel draws n mode = Some (Err KeyError).
Proof. exact C23_unknown_mode_proof. Qed.
Print Assumptions C23_unknown_mode.

Example C23_unknown_mode_ex :
  ~ means "Random"%string poisson_names /\ ~ means "Random"%string average_names /\
  means "Poisson DISK"%string poisson_names.
Proof. exact C23_unknown_mode_ex_proof. Qed.

(** C23. poisson_disk_sampling computes cell averages. *)
Theorem C23_poisson_disk_sampling_refuted :
  forall gdev eps D rows ids B cs n p radius dev eps' search fuel draws,
    grid_for gdev eps D rows ids B cs (ngrid n) -> valid_sizes D cs ->
    (0 <= eps)%Q -> fits eps D (all_dims D cs) rows ids ->
    (Z.of_nat B * product (gnc (ngrid n)) <= 2 ^ 31)%Z ->
    exists q l, poisson_disk_sampling dev eps' search fuel draws p radius (Some n) = Some (Ok (q, l)) /\
      cell_average eps D (all_dims D cs) rows ids (pts q) (bids q).
Proof. exact C23_poisson_disk_sampling_refuted_proof. Qed.
Print Assumptions C23_poisson_disk_sampling_refuted.

(** The example also refutes C24 for this function: the returned ids do not
    select the returned points. *)
Example C23_poisson_disk_sampling_refuted_ex :
  exists g n q l, usable (1#1000) 2 exN_rows exN_ids 2 [1#1] g /\
    snd (mk_nbh (find_neighbors_tf GPU) g [1#1] None 0) = Ok n /\
    poisson_disk_sampling GPU (1#1000) (find_neighbors_tf GPU) 6 (fun k => k) (seg 2 exN_rows exN_ids 2) None (Some n)
      = Some (Ok (q, l)) /\
    ~ In (nth 0 (pts q) []) exN_rows.
Proof. exact C23_poisson_disk_sampling_refuted_ex_proof. Qed.

(** C23. cell_average_sampling performs Poisson disk sampling. *)
Theorem C23_cell_average_sampling_refuted :
  forall eps D rows ids B cs g p eps' dev fuel draws,
    usable eps D rows ids B cs g -> radii_match D cs cs ->
    2 <= length ids -> length ids <= fuel ->
    exists q sel, cell_average_sampling dev eps' (find_neighbors_tf GPU) fuel draws p (Some cs) (Some g) = Some (Ok q) /\
      poisson_sample D (nth 0 (all_dims D cs) 0%Q) rows ids sel /\
      pts q = map (fun i => nth i rows []) sel /\ bids q = map (fun i => nth i ids 0) sel.
Proof. exact C23_cell_average_sampling_refuted_proof. Qed.
Print Assumptions C23_cell_average_sampling_refuted.

Example C23_cell_average_sampling_refuted_ex :
  exists g q, usable (1#1000) 2 exN_rows exN_ids 2 [1#1] g /\ radii_match 2 [1#1] [1#1] /\
    cell_average_sampling GPU (1#1000) (find_neighbors_tf GPU) 6 (fun k => k) (seg 2 exN_rows exN_ids 2) (Some [1#1]) (Some g)
      = Some (Ok q) /\ pts q = [[1#2;1#2];[5#2;0#1];[1#2;1#2];[3#1;3#1]].
Proof. exact C23_cell_average_sampling_refuted_ex_proof. Qed.

(** C23. Both entry points fail with the documented single number as radius or
    cell size, for every cloud. *)
Theorem C23_scalar_radius_refuted :
  forall dev eps search fuel draws p r,
    poisson_disk_sampling dev eps search fuel draws p (Some [r]) None = Some (Err ValueError) /\
    cell_average_sampling dev eps search fuel draws p (Some [r]) None = Some (Err ValueError).
Proof. exact C23_scalar_radius_refuted_proof. Qed.
Print Assumptions C23_scalar_radius_refuted.

(** C23. Without radius and neighborhood, or cell sizes and grid, both raise a
    ValueError. *)
Theorem C23_missing_argument :
  forall dev eps search fuel draws p,
    poisson_disk_sampling dev eps search fuel draws p None None = Some (Err ValueError) /\
    cell_average_sampling dev eps search fuel draws p None None = Some (Err ValueError).
Proof. exact C23_missing_argument_proof. Qed.
Print Assumptions C23_missing_argument.

(** Two points in the plane. *)
Example C23_missing_argument_ex :
  exists p, cloud GPU 0 2 [[0; 0]; [1; 1]]%Q [0; 0] 1 p /\ forall search draws,
    poisson_disk_sampling GPU 0 search 0 draws p None None = Some (Err ValueError) /\
    cell_average_sampling GPU 0 search 0 draws p None None = Some (Err ValueError).
Proof. exact C23_missing_argument_ex_proof. Qed.

(** C23. A grid alone is not enough for cell_average_sampling, although the
    cell sizes are documented as unnecessary then: ValueError. *)
Theorem C23_grid_argument_refuted :
  forall dev eps search fuel draws p g,
    cell_average_sampling dev eps search fuel draws p None (Some g) = Some (Err ValueError).
Proof. exact C23_grid_argument_refuted_proof. Qed.
Print Assumptions C23_grid_argument_refuted.

(** C24. Whenever Poisson sampling with [sample] returns, for any neighborhood
    of any grid of a cloud, whatever search, centers, draws and device: the
    returned indices select the returned points and batch ids from the
    cloud. *)
Theorem C24_sampled_ids :
  forall gdev eps D rows ids B cs n mode dev fuel draws q o,
    grid_for gdev eps D rows ids B cs (ngrid n) -> valid_sizes D cs ->
    means mode poisson_names ->
    sample dev fuel draws n mode = Some (Ok (q, o)) ->
    exists sel, o = Some sel /\ Forall (fun i => i < length ids) sel /\
      pts q = map (fun i => nth i rows []) sel /\ bids q = map (fun i => nth i ids 0) sel.
Proof. exact C24_sampled_ids_proof. Qed.
Print Assumptions C24_sampled_ids.

Example C24_sampled_ids_ex :
  exists g n q, grid_for GPU (1#1000) 2 exN_rows exN_ids 2 [1#1] g /\
    snd (mk_nbh (find_neighbors_tf GPU) g [1#1] None 0) = Ok n /\
    sample CPU 6 (fun k => 3 * k) n "poisson" = Some (Ok (q, Some [4;1;3;2])) /\
    pts q = [[1#2;1#2];[1#2;1#2];[3#1;3#1];[5#2;0#1]] /\ bids q = [1;0;0;0].
Proof. exact C24_sampled_ids_ex_proof. Qed.
