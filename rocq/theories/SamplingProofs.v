(** Proofs of the sampling properties (C21-C24). The statements are copied
    verbatim into PropertiesSampling.v. *)
From Coq Require Import String Ascii List Arith ZArith QArith Qround Lia Lqa Bool Permutation Sorted.
From Verif Require Import Tensor TensorFacts Spec PointCloud SpecCloud History PointCloudFacts QFacts
  Grid SpecGrid GridFacts GridProofs Neighbors SpecNeighbors NeighborFacts NeighborProofs
  Neighborhood NeighborhoodFacts Sampling SpecSampling SamplingFacts TextFacts.
Import ListNotations.
Local Open Scope nat_scope.

Lemma means_poisson s : means s poisson_names <-> In (lower s) poisson_names.
Proof. apply means_lower. repeat constructor. Qed.
Lemma means_average s : means s average_names <-> In (lower s) average_names.
Proof. apply means_lower. repeat constructor. Qed.
Lemma sample_mode_poisson s : means s poisson_names -> sample_modes (lower s) = Ok 0.
Proof. rewrite means_poisson. unfold sample_modes. intros [<-|[<-|[<-|[]]]]; reflexivity. Qed.
Lemma sample_mode_average s : means s average_names -> sample_modes (lower s) = Ok 1.
Proof. rewrite means_average. unfold sample_modes. intros [<-|[<-|[<-|[]]]]; reflexivity. Qed.
Lemma sample_mode_other s : ~ means s poisson_names -> ~ means s average_names ->
  sample_modes (lower s) = Err KeyError.
Proof.
  rewrite means_poisson, means_average. intros H1 H2. unfold sample_modes.
  assert (Hn : forall l, ~ In (lower s) l -> existsb (String.eqb (lower s)) l = false).
  { intros l H. apply not_true_iff_false. intros E. apply existsb_exists in E as (x & Hx & E).
    apply String.eqb_eq in E. subst. auto. }
  apply Hn in H1, H2. unfold poisson_names, average_names in *. now rewrite H1, H2.
Qed.

Lemma sampled_cloud_ok n D rows ids : dim (gcloud (ngrid n)) = D -> length rows = length ids ->
  sampled_cloud n rows ids = Ok (seg D rows ids (bsize (nsampled n))).
Proof.
  intros <- H. unfold sampled_cloud, init. cbn. now rewrite H, Nat.eqb_refl.
Qed.

Lemma poisson_seg :
  forall eps D rows ids B cs g radii max_neighbors n mode dev fuel draws,
    usable eps D rows ids B cs g -> radii_match D radii cs ->
    snd (mk_nbh (find_neighbors_tf GPU) g radii None max_neighbors) = Ok n ->
    2 <= length ids -> length ids <= fuel -> means mode poisson_names ->
    exists sel, let q := seg D (map (fun i => nth i rows []) sel) (map (fun i => nth i ids 0) sel) B in
      sample dev fuel draws n mode = Some (Ok (q, Some sel)) /\
      poisson_sample D (nth 0 (all_dims D radii) 0%Q) rows ids sel /\
      cloud GPU eps D (map (fun i => nth i rows []) sel) (map (fun i => nth i ids 0) sel) B q.
Proof.
  intros eps D rows ids B cs g radii mx n mode dev fuel draws Hu Hr E HN HF Hm.
  assert (Hne : ids <> []) by (intros ->; cbn in HN; lia).
  destruct (self_nbh eps D rows ids B cs g radii mx n Hu Hr E Hne)
    as (G & Hp & T1 & T2 & T3 & _ & P1 & P2 & P3 & Hin & Hd & Hs).
  rewrite <- T1, <- T2 in Hin.
  assert (Hsh : rshape (nranges n) = [length ids]).
  { rewrite Hs. unfold shape_of. destruct (length ids) as [|[|k]]; [lia..|reflexivity]. }
  destruct (poisson_ok GPU eps D rows ids B _ (ngrid n) n _ G eq_refl Hp Hin Hd Hsh dev fuel draws HF)
    as (sel & Es & Hlt & Hps).
  set (f := fun j => nth j (gsidx (ngrid n)) 0) in *.
  assert (Er : map (fun i => nth i (gspts (ngrid n)) []) sel = map (fun i => nth i rows []) (map f sel)).
  { rewrite map_map. apply map_ext_in. intros j Hj. rewrite Forall_forall in Hlt.
    now apply (spts_nth _ _ _ _ _ _ _ _ G), Hlt. }
  assert (Ei : map (fun i => nth i (gsbids (ngrid n)) 0) sel = map (fun i => nth i ids 0) (map f sel)).
  { rewrite map_map. apply map_ext_in. intros j Hj. rewrite Forall_forall in Hlt.
    now apply (sbids_nth _ _ _ _ _ _ _ _ G), Hlt. }
  rewrite Er, Ei in Es.
  pose proof (ig_cloud _ _ _ _ _ _ _ _ G) as C.
  exists (map f sel). cbv zeta.
  split; [|split; [exact Hps|]].
  - unfold sample. rewrite (sample_mode_poisson _ Hm). unfold sampling_tf. rewrite Es. cbn [omap bind Nat.eqb].
    rewrite (gather_map _ _ 0) by (rewrite (sidx_length _ _ _ _ _ _ _ _ G); exact Hlt). cbn [bind].
    rewrite (sampled_cloud_ok n D) by (first [apply (ic_dim _ _ _ _ _ _ _ C)|now rewrite !map_length]).
    cbn [bind]. now rewrite P3.
  - destruct Hps as (_ & Hlt' & _). apply seg_cloud; [now rewrite !map_length|..].
    + apply Forall_map. eapply Forall_impl; [|exact Hlt']. intros i Hi. pose proof (ic_ids _ _ _ _ _ _ _ C) as HF'.
      rewrite Forall_forall in HF'. apply HF', nth_In, Hi.
    + apply Forall_map. eapply Forall_impl; [|exact Hlt']. intros i Hi. pose proof (ic_rows _ _ _ _ _ _ _ C) as HF'.
      rewrite Forall_forall in HF'. apply HF', nth_In. rewrite (ic_len _ _ _ _ _ _ _ C). exact Hi.
Qed.

(** C21. Poisson disk sampling of a cloud of two or more points, for every
    random choice: it stops after at most as many draws as there are points,
    the returned indices are a Poisson disk sample of radius [r], and the
    returned cloud consists of the points with these indices and their
    elements. *)
Lemma C21_poisson_partial_proof :
  forall eps D rows ids B cs g radii max_neighbors n mode dev fuel draws,
    usable eps D rows ids B cs g -> radii_match D radii cs ->
    snd (mk_nbh (find_neighbors_tf GPU) g radii None max_neighbors) = Ok n ->
    2 <= length ids -> length ids <= fuel -> means mode poisson_names ->
    exists q sel, sample dev fuel draws n mode = Some (Ok (q, Some sel)) /\
      poisson_sample D (nth 0 (all_dims D radii) 0%Q) rows ids sel /\
      cloud GPU eps D (map (fun i => nth i rows []) sel) (map (fun i => nth i ids 0) sel) B q.
Proof.
  intros eps D rows ids B cs g radii mx n mode dev fuel draws Hu Hr E HN HF Hm.
  destruct (poisson_seg eps D rows ids B cs g radii mx n mode dev fuel draws Hu Hr E HN HF Hm) as (sel & H). eauto.
Qed.

Definition exS_nbh (eps : Q) (rows : list point) (ids : list nat) (B : nat) (cs : list Q) : result nbh :=
  g <- mk_grid GPU eps (seg 2 rows ids B) cs ;; snd (mk_nbh (find_neighbors_tf GPU) g cs None 0).

Lemma exN_usable : exists g, usable (1#1000) 2 exN_rows exN_ids 2 [1#1] g /\ radii_match 2 [1#1] [1#1] /\
  mk_grid GPU (1#1000) (seg 2 exN_rows exN_ids 2) [1#1] = Ok g.
Proof.
  destruct (mk_grid GPU (1#1000) (seg 2 exN_rows exN_ids 2) [1#1]) as [g|] eqn:Eg; [|vm_compute in Eg; discriminate].
  exists g. split; [|split; [|reflexivity]].
  - constructor.
    + eapply grid_new; [|exact Eg]. apply seg_cloud; repeat constructor.
    + split; [reflexivity|repeat constructor].
    + lia.
    + discriminate.
    + left; reflexivity.
    + cbn. lia.
    + vm_compute in Eg. inversion Eg; subst g. vm_compute. discriminate.
  - repeat split; try reflexivity. discriminate.
Qed.

Example C21_poisson_partial_ex_proof :
  exists g n q, usable (1#1000) 2 exN_rows exN_ids 2 [1#1] g /\ radii_match 2 [1#1] [1#1] /\
    snd (mk_nbh (find_neighbors_tf GPU) g [1#1] None 0) = Ok n /\
    sample GPU 6 (fun k => k) n "POISSON disk" = Some (Ok (q, Some [4;2;1;3])) /\
    sample GPU 6 (fun k => 5 - k) n "poisson_disk" = Some (Ok (seg 2 [[1#2;1#2];[1#2;1#2];[5#2;0#1];[3#1;3#1]] [0;1;0;0] 2, Some [1;4;2;3])).
Proof.
  destruct exN_usable as (g & Hu & Hr & Eg). exists g. do 2 eexists. split; [exact Hu|]. split; [exact Hr|].
  vm_compute in Eg. inversion Eg; subst g. clear.
  split; [vm_compute; reflexivity|]. split; vm_compute; reflexivity.
Qed.

(** C21, single points. A cloud of one point cannot be Poisson sampled: the
    neighbor ranges are a scalar and the call fails. *)
Lemma C21_single_point_refuted_proof :
  forall eps D p b B cs g radii max_neighbors n mode dev fuel draws,
    usable eps D [p] [b] B cs g -> radii_match D radii cs ->
    snd (mk_nbh (find_neighbors_tf GPU) g radii None max_neighbors) = Ok n ->
    means mode poisson_names ->
    sample dev fuel draws n mode = Some (Err InvalidArgument).
Proof.
  intros eps D p b B cs g radii mx n mode dev fuel draws Hu Hr E Hm.
  destruct (self_nbh eps D [p] [b] B cs g radii mx n Hu Hr E ltac:(discriminate))
    as (_ & _ & _ & _ & _ & _ & _ & _ & _ & _ & _ & Hs).
  unfold sample. rewrite (sample_mode_poisson _ Hm). cbn [sampling_tf]. unfold sampling_poisson. now rewrite Hs.
Qed.

Example C21_single_point_refuted_ex_proof :
  exists n, exS_nbh (1#1000) [[1#3;2#1]] [0] 1 [1#1] = Ok n /\ norig n = [(0, 0)].
Proof. eexists. split; vm_compute; reflexivity. Qed.

(** C21, boundary. Without effective margin and with an extent that is a
    multiple of the cell size a point can be missing in its own neighborhood;
    the loop then never ends, whatever is drawn. *)
Lemma C21_boundary_refuted_proof :
  exists rows ids r n, exS_nbh 0 rows ids 1 [r] = Ok n /\ (0 < r)%Q /\
    forall dev fuel draws, sample dev fuel draws n "poisson" = None.
Proof.
  exists [[0#1;3#1];[3#2;0#1]], [0;0], (1#1). eexists. split; [vm_compute; reflexivity|]. split; [reflexivity|].
  intros dev fuel draws. unfold sample.
  change (sample_modes (lower "poisson")) with (@Ok nat 0). cbn [sampling_tf]. unfold sampling_poisson.
  cbn [ngrid nranges nnbs rshape rdata gspts length repeat].
  assert (H : forall fuel k b acc,
    poisson_loop dev fuel draws k [0;0;1]%Z [(1, 1)] [true; b] acc = None).
  { clear. induction fuel as [|fuel IH]; intros k b acc; [destruct b; reflexivity|].
    destruct b.
    - cbn [poisson_loop candidates length seq filter nth].
      assert (Hk : draws k mod 2 = 0 \/ draws k mod 2 = 1) by (pose proof (Nat.mod_upper_bound (draws k) 2); lia).
      destruct Hk as [-> | ->]; cbn [nth nth_error plus].
      + destruct dev; exact (IH (S k) true (acc ++ [0])).
      + destruct dev; exact (IH (S k) false (acc ++ [1])).
    - cbn [poisson_loop candidates length seq filter nth]. rewrite Nat.mod_1_r. cbn [nth nth_error plus].
      destruct dev; exact (IH (S k) false (acc ++ [0])). }
  rewrite H. reflexivity.
Qed.

(** C22. Cell average sampling, for the neighborhood of any sample in a grid
    that every point fits in and whose cells can be counted in 32 bit. *)
Lemma C22_cell_average_partial_proof :
  forall gdev eps D rows ids B cs n mode dev fuel draws,
    grid_for gdev eps D rows ids B cs (ngrid n) -> valid_sizes D cs ->
    (0 <= eps)%Q -> fits eps D (all_dims D cs) rows ids ->
    (Z.of_nat B * product (gnc (ngrid n)) <= 2 ^ 31)%Z -> means mode average_names ->
    exists q, sample dev fuel draws n mode = Some (Ok (q, None)) /\
      cell_average eps D (all_dims D cs) rows ids (pts q) (bids q) /\
      dim q = D /\ bsize q = bsize (nsampled n).
Proof.
  intros gdev eps D rows ids B cs n mode dev fuel draws Hg Hv He Hf Ho Hm.
  pose proof (grid_for_is _ _ _ _ _ _ _ _ Hv Hg) as G.
  destruct (average_ok gdev eps D rows ids B _ (ngrid n) n eq_refl He G Hf Ho) as (out & oids & sel & E & HA & _).
  exists (seg D out oids (bsize (nsampled n))).
  split; [|split; [exact HA|split; reflexivity]].
  unfold sample. rewrite (sample_mode_average _ Hm). cbn [sampling_tf]. rewrite E. cbn [omap bind Nat.eqb].
  rewrite (sampled_cloud_ok n D).
  - reflexivity.
  - apply (ic_dim _ _ _ _ _ _ _ (ig_cloud _ _ _ _ _ _ _ _ G)).
  - destruct HA as (lo & gr & _ & _ & H1 & H2 & _). congruence.
Qed.

Example C22_cell_average_partial_ex_proof :
  exists g n q, usable (1#1000) 2 exN_rows exN_ids 2 [1#1] g /\
    snd (mk_nbh (find_neighbors_tf GPU) g [1#1] None 0) = Ok n /\
    sample GPU 0 (fun k => k) n "Cell Average" = Some (Ok (q, None)) /\
    pts q = [[28#40;28#40];[3#1;3#1];[5#2;0#1];[1#4;1#4]] /\ bids q = [1;0;0;0].
Proof.
  destruct exN_usable as (g & Hu & Hr & Eg). exists g. do 2 eexists. split; [exact Hu|].
  vm_compute in Eg. inversion Eg; subst g. clear.
  split; [vm_compute; reflexivity|]. split; [vm_compute; reflexivity|]. split; reflexivity.
Qed.

(** C22, boundary. Without effective margin, points of different elements can be
    averaged, so that an element with points has none afterwards. *)
Lemma C22_boundary_refuted_proof :
  exists rows ids n q, exS_nbh 0 rows ids 2 [1#1] = Ok n /\
    (forall dev fuel draws, sample dev fuel draws n "average" = Some (Ok (q, None))) /\
    In 1 ids /\ ~ In 1 (bids q).
Proof.
  exists [[0#1;0#1];[1#1;0#1];[0#1;0#1]], [0;0;1]. do 2 eexists. split; [vm_compute; reflexivity|].
  split; [intros; vm_compute; reflexivity|]. split; [cbn; tauto|]. cbn. intuition discriminate.
Qed.

(** C23. The mode names of [sample] in any capitalisation; every other string
    is a KeyError (for any neighborhood). *)
Lemma C23_unknown_mode_proof :
  forall dev fuel draws n mode,
    ~ means mode poisson_names -> ~ means mode average_names ->
    sample dev fuel draws n mode = Some (Err KeyError).
Proof. intros. unfold sample. now rewrite sample_mode_other. Qed.

Example C23_unknown_mode_ex_proof :
  ~ means "Random"%string poisson_names /\ ~ means "Random"%string average_names /\
  means "Poisson DISK"%string poisson_names.
Proof. rewrite !means_poisson, means_average. vm_compute. intuition discriminate. Qed.

(** C23. poisson_disk_sampling computes cell averages. *)
Lemma C23_poisson_disk_sampling_refuted_proof :
  forall gdev eps D rows ids B cs n p radius dev eps' search fuel draws,
    grid_for gdev eps D rows ids B cs (ngrid n) -> valid_sizes D cs ->
    (0 <= eps)%Q -> fits eps D (all_dims D cs) rows ids ->
    (Z.of_nat B * product (gnc (ngrid n)) <= 2 ^ 31)%Z ->
    exists q l, poisson_disk_sampling dev eps' search fuel draws p radius (Some n) = Some (Ok (q, l)) /\
      cell_average eps D (all_dims D cs) rows ids (pts q) (bids q).
Proof.
  intros gdev eps D rows ids B cs n p radius dev eps' search fuel draws Hg Hv He Hf Ho.
  pose proof (grid_for_is _ _ _ _ _ _ _ _ Hv Hg) as G.
  destruct (average_ok gdev eps D rows ids B _ (ngrid n) n eq_refl He G Hf Ho) as (out & oids & sel & E & HA & Ls & Hs).
  exists (seg D out oids (bsize (nsampled n))), (map (fun i => nth i (gsidx (ngrid n)) 0) sel).
  split; [|exact HA].
  unfold poisson_disk_sampling. cbn [sampling_tf]. rewrite E. cbn [omap bind].
  rewrite (sampled_cloud_ok n D).
  - cbn [bind]. now rewrite (gather_map _ _ 0) by (rewrite (sidx_length _ _ _ _ _ _ _ _ G); exact Hs).
  - apply (ic_dim _ _ _ _ _ _ _ (ig_cloud _ _ _ _ _ _ _ _ G)).
  - destruct HA as (lo & gr & _ & _ & H1 & H2 & _). congruence.
Qed.

(** The example also refutes C24 for this function: the returned ids do not
    select the returned points. *)
Example C23_poisson_disk_sampling_refuted_ex_proof :
  exists g n q l, usable (1#1000) 2 exN_rows exN_ids 2 [1#1] g /\
    snd (mk_nbh (find_neighbors_tf GPU) g [1#1] None 0) = Ok n /\
    poisson_disk_sampling GPU (1#1000) (find_neighbors_tf GPU) 6 (fun k => k) (seg 2 exN_rows exN_ids 2) None (Some n)
      = Some (Ok (q, l)) /\
    ~ In (nth 0 (pts q) []) exN_rows.
Proof.
  destruct exN_usable as (g & Hu & Hr & Eg). exists g. do 3 eexists. split; [exact Hu|].
  vm_compute in Eg. inversion Eg; subst g. clear.
  split; [vm_compute; reflexivity|]. split; [vm_compute; reflexivity|]. cbn. intuition discriminate.
Qed.

(** C23. cell_average_sampling performs Poisson disk sampling. *)
Lemma C23_cell_average_sampling_refuted_proof :
  forall eps D rows ids B cs g p eps' dev fuel draws,
    usable eps D rows ids B cs g -> radii_match D cs cs ->
    2 <= length ids -> length ids <= fuel ->
    exists q sel, cell_average_sampling dev eps' (find_neighbors_tf GPU) fuel draws p (Some cs) (Some g) = Some (Ok q) /\
      poisson_sample D (nth 0 (all_dims D cs) 0%Q) rows ids sel /\
      pts q = map (fun i => nth i rows []) sel /\ bids q = map (fun i => nth i ids 0) sel.
Proof.
  intros eps D rows ids B cs g p eps' dev fuel draws Hu Hr HN HF.
  assert (Hne : ids <> []) by (intros ->; cbn in HN; lia).
  pose proof (grid_for_is _ _ _ _ _ _ _ _ (us_sizes _ _ _ _ _ _ _ Hu) (us_grid _ _ _ _ _ _ _ Hu)) as G0.
  destruct (sorted_cloud_ok _ _ _ _ _ _ _ _ G0) as (sp & Ep & _ & Hp). specialize (Hp GPU eps).
  assert (Hne' : gsbids g <> []).
  { intros E. apply Hne, length_zero_iff_nil. rewrite <- (sbids_length _ _ _ _ _ _ _ _ G0), E. reflexivity. }
  destruct (mk_nbh_tf eps D rows ids B cs g eps (gspts g) (gsbids g) B sp cs 0 None Hu Hp Hne'
    (ic_ids _ _ _ _ _ _ _ (cloud_is _ _ _ _ _ _ _ Hp)) Hr (or_intror (conj eq_refl Ep))) as (n & E & _).
  destruct (C21_poisson_partial_proof eps D rows ids B cs g cs 0 n "poisson" dev fuel draws Hu Hr E HN HF ltac:(apply means_poisson; now left))
    as (q & sel & Es & Hs & Hc).
  exists q, sel. split; [|split; [exact Hs|split; apply (cloud_is _ _ _ _ _ _ _ Hc)]].
  unfold cell_average_sampling. rewrite E.
  unfold sample in Es. change (sample_modes (lower "poisson")) with (@Ok nat 0) in Es.
  cbv iota beta in Es. revert Es. destruct (sampling_tf dev fuel draws n 0) as [[[[ps bs] s]|e]|]; cbn [omap bind Nat.eqb]; try discriminate.
  destruct (gather (gsidx (ngrid n)) s) as [l|x]; cbn [bind]; [|intros X; discriminate X].
  destruct (sampled_cloud n ps bs); cbn [bind]; [|intros X; discriminate X]. intros Es. inversion Es. reflexivity.
Qed.

Example C23_cell_average_sampling_refuted_ex_proof :
  exists g q, usable (1#1000) 2 exN_rows exN_ids 2 [1#1] g /\ radii_match 2 [1#1] [1#1] /\
    cell_average_sampling GPU (1#1000) (find_neighbors_tf GPU) 6 (fun k => k) (seg 2 exN_rows exN_ids 2) (Some [1#1]) (Some g)
      = Some (Ok q) /\ pts q = [[1#2;1#2];[5#2;0#1];[1#2;1#2];[3#1;3#1]].
Proof.
  destruct exN_usable as (g & Hu & Hr & Eg). exists g. eexists. split; [exact Hu|]. split; [exact Hr|].
  vm_compute in Eg. inversion Eg; subst g. clear. split; vm_compute; reflexivity.
Qed.

(** C23. Both entry points fail with the documented single number as radius or
    cell size, for every cloud. *)
Lemma C23_scalar_radius_refuted_proof :
  forall dev eps search fuel draws p r,
    poisson_disk_sampling dev eps search fuel draws p (Some [r]) None = Some (Err ValueError) /\
    cell_average_sampling dev eps search fuel draws p (Some [r]) None = Some (Err ValueError).
Proof. intros. split; reflexivity. Qed.

(** C23. Without radius and neighborhood, or cell sizes and grid, both raise a
    ValueError. *)
Lemma C23_missing_argument_proof :
  forall dev eps search fuel draws p,
    poisson_disk_sampling dev eps search fuel draws p None None = Some (Err ValueError) /\
    cell_average_sampling dev eps search fuel draws p None None = Some (Err ValueError).
Proof. intros. split; reflexivity. Qed.
(** Two points in the plane. *)
Example C23_missing_argument_ex_proof :
  exists p, cloud GPU 0 2 [[0; 0]; [1; 1]]%Q [0; 0] 1 p /\ forall search draws,
    poisson_disk_sampling GPU 0 search 0 draws p None None = Some (Err ValueError) /\
    cell_average_sampling GPU 0 search 0 draws p None None = Some (Err ValueError).
Proof. exists (seg 2 [[0; 0]; [1; 1]]%Q [0; 0] 1). split; [apply seg_cloud; repeat constructor|]. intros. split; reflexivity. Qed.

(** C23. A grid alone is not enough for cell_average_sampling, although the
    cell sizes are documented as unnecessary then: ValueError. *)
Lemma C23_grid_argument_refuted_proof :
  forall dev eps search fuel draws p g,
    cell_average_sampling dev eps search fuel draws p None (Some g) = Some (Err ValueError).
Proof. reflexivity. Qed.

(** C24. Whenever Poisson sampling with [sample] returns, for any neighborhood
    of any grid of a cloud, whatever search, centers, draws and device: the
    returned indices select the returned points and batch ids from the
    cloud. *)
Lemma C24_sampled_ids_proof :
  forall gdev eps D rows ids B cs n mode dev fuel draws q o,
    grid_for gdev eps D rows ids B cs (ngrid n) -> valid_sizes D cs ->
    means mode poisson_names ->
    sample dev fuel draws n mode = Some (Ok (q, o)) ->
    exists sel, o = Some sel /\ Forall (fun i => i < length ids) sel /\
      pts q = map (fun i => nth i rows []) sel /\ bids q = map (fun i => nth i ids 0) sel.
Proof.
  intros gdev eps D rows ids B cs n mode dev fuel draws q o Hg Hv Hm E.
  pose proof (grid_for_is _ _ _ _ _ _ _ _ Hv Hg) as G.
  unfold sample in E. rewrite (sample_mode_poisson _ Hm) in E. cbn [sampling_tf] in E.
  unfold sampling_poisson in E. destruct (rshape (nranges n)) as [|a [|]]; try discriminate.
  destruct (poisson_loop _ _ _ _ _ _ _ _) as [[s|]|]; try discriminate. cbn [omap bind] in E.
  destruct (gather (gspts (ngrid n)) s) as [ps|] eqn:E1; [|discriminate]. cbn [bind] in E.
  destruct (gather (gsbids (ngrid n)) s) as [bs|] eqn:E2; [|discriminate]. cbn [bind Nat.eqb] in E.
  destruct (gather (gsidx (ngrid n)) s) as [l|] eqn:E3; [|discriminate]. cbn [bind] in E.
  apply (gather_ok_inv _ _ _ []) in E1 as [-> H]. apply (gather_ok_inv _ _ _ 0) in E2 as [-> _].
  apply (gather_ok_inv _ _ _ 0) in E3 as [-> _]. rewrite (spts_length _ _ _ _ _ _ _ _ G) in H.
  rewrite (sampled_cloud_ok n D) in E by (first [apply (ic_dim _ _ _ _ _ _ _ (ig_cloud _ _ _ _ _ _ _ _ G))|now rewrite !map_length]).
  cbn [bind] in E. inversion E; subst q o. eexists. split; [reflexivity|]. cbn [pts bids seg]. rewrite Forall_forall in H.
  split; [|split].
  - apply Forall_map, Forall_forall. intros j Hj. apply (sidx_lt _ _ _ _ _ _ _ _ G). auto.
  - rewrite map_map. apply map_ext_in. intros j Hj. apply (spts_nth _ _ _ _ _ _ _ _ G). auto.
  - rewrite map_map. apply map_ext_in. intros j Hj. apply (sbids_nth _ _ _ _ _ _ _ _ G). auto.
Qed.

Example C24_sampled_ids_ex_proof :
  exists g n q, grid_for GPU (1#1000) 2 exN_rows exN_ids 2 [1#1] g /\
    snd (mk_nbh (find_neighbors_tf GPU) g [1#1] None 0) = Ok n /\
    sample CPU 6 (fun k => 3 * k) n "poisson" = Some (Ok (q, Some [4;1;3;2])) /\
    pts q = [[1#2;1#2];[1#2;1#2];[3#1;3#1];[5#2;0#1]] /\ bids q = [1;0;0;0].
Proof.
  destruct exN_usable as (g & Hu & Hr & Eg). exists g. do 2 eexists. split; [apply Hu|].
  vm_compute in Eg. inversion Eg; subst g. clear.
  split; [vm_compute; reflexivity|]. split; [vm_compute; reflexivity|]. split; reflexivity.
Qed.
