(** Proofs about Poisson disk sampling with the CUDA operations in float32
    (C74). The statements are copied into PropertiesGpuFloatSampling.v. *)
From Coq Require Import String List Arith ZArith NArith QArith Qround Qabs Lia Lqa Bool Permutation Sorted.
From Verif Require Import Tensor TensorFacts Spec PointCloud SpecCloud History PointCloudFacts QFacts CloudProofs
  Grid SpecGrid GridFacts GridProofs Neighbors SpecNeighbors NeighborFacts NeighborProofs Neighborhood NeighborhoodFacts Sampling SpecSampling SamplingFacts SamplingProofs
  Cuda CudaFacts AddFacts GpuGrid GpuGridFacts GpuGridProofs GpuScan SpecGpu GpuNeighbors GpuCountFacts SlotFacts GpuStoreFacts
  GpuNeighborFacts GpuOpFacts GpuRangeFacts GpuGeometry GpuSearchFacts GpuNeighborProofs GpuSampling UniqueFacts PoissonFacts SampleFacts SpecGpuSampling GpuSampleFacts GpuSampleProofs
  Float FloatFacts FloatGrid SpecFloat FloatGridFacts FloatProofs GpuFloat SpecGpuFloat GpuFloatProofs GpuFloatSearch GpuNearFacts GpuFloatSearchProofs GpuFloatSampling.
Import ListNotations.
Local Open Scope nat_scope.

Section Sample.
  Context (fused : bool) (D : nat) (rows : list point) (ids : list nat) (B : nat) (cells : point) (g : grid).
  Hypothesis HD : 2 <= D <= 6.
  Hypothesis G : is_device_grid fused D rows ids B cells g.
  Hypothesis Hne : ids <> [].

  Lemma sd_sorted_cloud : sorted_cloud g = Ok (seg D (gspts g) (gsbids g) B) /\ is_cloud GPU 0 D (gspts g) (gsbids g) B (seg D (gspts g) (gsbids g) B) /\
    Forall (fun b => b < B) (gsbids g) /\ gsbids g <> [].
  Proof.
    destruct (dg_cloud _ _ _ _ _ _ _ G) as (eps & C).
    pose proof (sd_sbids_len fused D rows ids B cells g G) as Lb. pose proof (sd_spts_len fused D rows ids B cells g G) as Lp.
    assert (Hids : Forall (fun b => b < B) (gsbids g)).
    { apply Forall_forall. intros b Hb. apply (In_nth _ _ 0) in Hb. destruct Hb as (j & Hj & <-). rewrite Lb in Hj. rewrite (sd_sbid fused D rows ids B cells g G j Hj).
      apply (sd_ids fused D rows ids B cells g G). apply (sd_sidx_lt fused D rows ids B cells g G j Hj). }
    split; [|split; [|split]].
    - unfold sorted_cloud, init. rewrite (ic_dim _ _ _ _ _ _ _ C), (ic_bsize _ _ _ _ _ _ _ C). cbn. rewrite Lb, Lp, Nat.eqb_refl. reflexivity.
    - apply cloud_is, seg_cloud; auto; try congruence. apply Forall_forall. intros r Hr. apply (In_nth _ _ []) in Hr. destruct Hr as (j & Hj & <-).
      rewrite Lp in Hj. rewrite (sd_spt fused D rows ids B cells g G j Hj). pose proof (ic_rows _ _ _ _ _ _ _ C) as F. rewrite Forall_forall in F. apply F, nth_In.
      rewrite (sd_rows fused D rows ids B cells g G). apply (sd_sidx_lt fused D rows ids B cells g G j Hj).
    - exact Hids.
    - intros E. rewrite E in Lb. destruct ids; [congruence|discriminate].
  Qed.

  (** The cell of a sorted point is the same as a center. *)
  Lemma same_cell j : j < length ids -> sd_scells fused D rows ids cells g (gspts g) (gsbids g) j = sd_pcells fused D rows ids cells g j.
  Proof.
    intros Hj. unfold sd_scells, sd_pcells, sd_cells. apply map_ext_in. intros d _. unfold sd_scell, dcell.
    rewrite (sd_sbid fused D rows ids B cells g G j Hj), (sd_spt fused D rows ids B cells g G j Hj). reflexivity.
  Qed.

  (** Sampling from a neighborhood with rows between two ellipsoids. *)
  Lemma poisson_gpu32 (active : skernel -> nat) warp n (small large : list Q) mode (P : pc -> option (list nat) -> Prop) :
    (forall k, active k <> 0) -> warp <> 0 -> ngrid n = g ->
    length small = D -> (forall d, (d < D)%nat -> 0 < nth d small 1)%Q -> length large = D -> (forall d, (d < D)%nat -> 0 < nth d large 1)%Q ->
    delimits (rdata (nranges n)) (nnbs n) (length ids) ->
    (forall j i, In (j, i) (nnbs n) -> inside_ellipsoid D large (gspts g) (gsbids g) (gspts g) (gsbids g) j i) ->
    (forall j i, inside_ellipsoid D small (gspts g) (gsbids g) (gspts g) (gsbids g) j i -> In (j, i) (nnbs n)) ->
    (forall j i d, inside_ellipsoid D small (gspts g) (gsbids g) (gspts g) (gsbids g) j i -> d < D ->
       (Z.abs (nth d (sd_pcells fused D rows ids cells g i) 0 - nth d (sd_pcells fused D rows ids cells g j) 0) <= 1)%Z) ->
    means mode poisson_names ->
    (forall sel, spread_sample D small large rows ids sel ->
       P (seg D (map (fun i => nth i rows []) sel) (map (fun i => nth i ids 0) sel) (bsize (nsampled n))) (Some sel)) ->
    sample_gpu active warp n mode P.
  Proof.
    intros Ha Hw En Ls Ps Ll Pl Hd Hn1 Hn2 Ht Hm HP. destruct (dg_cloud _ _ _ _ _ _ _ G) as (eps & C).
    pose proof (sd_sbids_len fused D rows ids B cells g G) as Lb. pose proof (sd_spts_len fused D rows ids B cells g G) as Lp. pose proof (sd_skeys_len fused D rows ids B cells g G) as Lk.
    unfold sample_gpu. exists 0. split; [now apply sample_mode_poisson|]. unfold sampling_gpu. cbv zeta. rewrite En. rewrite (ic_dim _ _ _ _ _ _ _ C).
    apply (keys_poisson D (gnc g) (gskeys g) (gspts g) (gsbids g) (sd_pcells fused D rows ids cells g)) with (small := small) (large := large); auto; try congruence.
    - apply (sd_nc_len fused D rows ids B cells g G).
    - intros E. rewrite E in Lk. destruct ids; [congruence|discriminate].
    - apply (sd_nc_all fused D rows ids B cells g G).
    - apply (sd_sorted fused D rows ids B cells g G).
    - intros j Hj. destruct (sd_pkeys fused D rows ids B cells g G j Hj) as (E & I & _). auto.
    - intros sel Hs. exists (map (fun i => nth i (gsbids g) 0) sel). split.
      { rewrite <- (map_map (fun i => nth i (gsbids g) 0) Z.of_nat). apply to_nats_of. }
      pose proof Hs as (_ & Hl & _). rewrite Lb in Hl. exists (Some (map (fun i => nth i (gsidx g) 0) sel)). split.
      { cbn [Nat.eqb]. exists sel. eexists. split; [apply to_nats_of|]. split; [|reflexivity]. apply gather_map. now rewrite (sd_sidx_len fused D rows ids B cells g G). }
      eexists. split; [apply (sampled_cloud_ok n D); [rewrite En; apply (ic_dim _ _ _ _ _ _ _ C)|now rewrite !map_length]|].
      assert (Ho : spread_sample D small large rows ids (map (fun j => nth j (gsidx g) 0) sel)).
      { apply (spread_original D small large rows ids (gspts g) (gsbids g)); auto.
        - exact (sd_perm fused D rows ids B cells g G).
        - exact (sd_spt fused D rows ids B cells g G).
        - exact (sd_sbid fused D rows ids B cells g G). }
      specialize (HP _ Ho). rewrite !map_map in HP. rewrite Forall_forall in Hl.
      rewrite (map_ext_in (fun i => nth i (gspts g) []) (fun j => nth (nth j (gsidx g) 0) rows [])) by (intros i Hi; apply (sd_spt fused D rows ids B cells g G); auto).
      rewrite (map_ext_in (fun i => nth i (gsbids g) 0) (fun j => nth (nth j (gsidx g) 0) ids 0)) by (intros i Hi; apply (sd_sbid fused D rows ids B cells g G); auto).
      exact HP.
  Qed.
End Sample.

Lemma times_radii_len s l : length (times_radii s l) = length l.
Proof. apply map_length. Qed.
Lemma times_radii_pos s l d : (0 < s)%Q -> d < length l -> (0 < nth d l 0)%Q -> (0 < nth d (times_radii s l) 1)%Q.
Proof.
  intros Hs Hd Hp. unfold times_radii. rewrite (nth_indep _ 1%Q (s * 0)%Q) by (rewrite map_length; exact Hd). rewrite (map_nth (fun r => s * r)%Q). nra.
Qed.

(** C74, partial. Poisson disk sampling with all steps as the CUDA operations do
    them in float32: grid, neighborhood of the grid with itself, sampling. For
    every cloud of dimension 2 to 6, all cell sizes and radii up to them, every
    device and schedule and either way of rounding: the operations complete and
    return the points and elements of a list of distinct indices such that no
    selected point is inside the ellipsoid of another one for the radii reduced
    by a fraction of (m + 4) / 2^20, and every point is inside the ellipsoid of a
    selected one for the radii enlarged by 4 / 2^20. The coordinates of points
    and corners are within [m] cells of the origin. Partial: with the conditions
    of C41, and for the reduced radii. *)
Lemma C74_sample_partial_proof :
  forall fused active sactive warp eps D rows ids B cs p radii time mode (m : Z),
    (forall x, active x <> 0) -> (forall k, sactive k <> 0) -> warp <> 0 -> (exists q, 2 ^ 8 * 2 = q * (2 * warp)) ->
    2 <= D <= 6 -> ids <> [] -> cloud GPU eps D rows ids B p -> valid_sizes D (map f32 cs) -> valid_sizes D (map f32 radii) ->
    let c d := nth d (all_dims D (map f32 cs)) 0%Q in
    let rs := all_dims D (map f32 radii) in
    (forall d, (d < D)%nat -> pow2 (-100) <= nth d rs 0 /\ nth d rs 0 <= c d /\ c d <= pow2 100)%Q ->
    (0 <= m)%Z -> (m + 4 < 2 ^ 20)%Z ->
    (forall d, d < D ->
       (forall i, (i < length ids)%nat -> Qabs (xc rows i d) <= inject_Z m * c d)%Q /\
       (forall b lo, In b ids -> lower_corner32 D rows ids b lo -> Qabs (nth d lo 0) <= inject_Z m * c d)%Q) ->
    length ids <= 2 ^ 8 * 2 + active KScan * (2 * warp) -> means mode poisson_names ->
    mk_grid_gpu32 fused (active KKeys) warp p cs (fun g =>
      D <= 3 \/ (3 <= nth (D - 1) (gnc g) 0)%Z ->
      mk_nbh_gpu32 fused active warp time g radii 0 (fun n =>
        sample_gpu sactive warp n mode (fun q o => exists sel, o = Some sel /\
          spread_sample D (times_radii (1 - (inject_Z m + 4) / 1048576) rs) (times_radii (1 + 4 / 1048576) rs) rows ids sel /\
          cloud GPU eps D (map (fun i => nth i rows []) sel) (map (fun i => nth i ids 0) sel) B q))).
Proof.
  intros fused active sactive warp eps D rows ids B cs p radii time mode m Ha Hs Hw Hq HD Hne Hc Hv Hr c rs Hb Hm0 Hm Hfar Hlen Hmode.
  apply cloud_is in Hc. pose proof (valid_sizes_pos D _ Hv) as [Lc Pc]. pose proof (valid_sizes_pos D _ Hr) as [Lr Pr].
  change (all_dims D (map f32 radii)) with (bcast D (map f32 radii)) in *. change (all_dims D (map f32 cs)) with (bcast D (map f32 cs)) in *.
  set (cells := bcast D (map f32 cs)) in *. fold rs in Lr, Pr.
  apply (mk_grid_gpu32_ok fused (active KKeys) warp eps D rows ids B); auto. intros g G Hlast. fold cells in G.
  destruct (sd_sorted_cloud fused D rows ids B cells g G Hne) as (Es & Cs & Hids & Hcne).
  pose proof (sd_sbids_len fused D rows ids B cells g G) as Lb.
  unfold mk_nbh_gpu32. cbv zeta. destruct (dg_cloud _ _ _ _ _ _ _ G) as (eps' & C). rewrite (ic_dim _ _ _ _ _ _ _ C). fold rs.
  exists (seg D (gspts g) (gsbids g) B). split; [exact Es|].
  assert (Hfar' : forall d, d < D ->
       (forall i, (i < length ids)%nat -> Qabs (xc rows i d) <= inject_Z m * nth d cells 0)%Q /\
       (forall i, (i < length (gsbids g))%nat -> Qabs (xc (gspts g) i d) <= inject_Z m * nth d cells 0)%Q /\
       (forall b lo, In b ids -> lower_corner32 D rows ids b lo -> Qabs (nth d lo 0) <= inject_Z m * nth d cells 0)%Q).
  { intros d Hd. destruct (Hfar d Hd) as (H1 & H2). split; [exact H1|]. split; [|exact H2]. intros i Hi. rewrite Lb in Hi. unfold xc.
    rewrite (sd_spt fused D rows ids B cells g G i Hi). apply H1. apply (sd_sidx_lt fused D rows ids B cells g G i Hi). }
  assert (Ps := shrunk_pos m Hm0 Hm).
  apply (search_sandwich fused D rows ids B cells g (gspts g) (gsbids g) rs m) with (ceps := 0%Q) (CB := B); auto.
  { now rewrite Lb. }
  intros ends nbs D1 D2 D3 D4. rewrite Lb in D1.
  assert (Lt : Forall (fun i => i < length (gsidx g)) (map fst nbs)).
  { apply Forall_map, Forall_forall. intros [j i] Hi. apply D3 in Hi. destruct Hi as (Hi & _). rewrite (sd_sidx_len fused D rows ids B cells g G), <- Lb. exact Hi. }
  eexists. split; [unfold original_ids; rewrite (gather_map _ _ 0 Lt); reflexivity|].
  apply (poisson_gpu32 fused D rows ids B cells g HD G Hne) with (small := times_radii (1 - (inject_Z m + 4) / 1048576) rs) (large := times_radii (1 + 4 / 1048576) rs); auto.
  - now rewrite times_radii_len.
  - intros d Hd. apply times_radii_pos; [apply Ps|now rewrite Lr|apply Pr, Hd].
  - now rewrite times_radii_len.
  - intros d Hd. apply times_radii_pos; [reflexivity|now rewrite Lr|apply Pr, Hd].
  - intros j i d H Hd. pose proof (small_adjacent fused D rows ids B cells g (gspts g) (gsbids g) rs m HD G Lr Pr Hb Hm0 Hm Hfar' j i d H Hd) as A.
    rewrite (same_cell fused D rows ids B cells g G) in A by (destruct H as (_ & H & _); now rewrite Lb in H). lia.
  - intros sel Hsel. exists sel. split; [reflexivity|]. split; [exact Hsel|]. cbn [nsampled bsize seg].
    destruct Hsel as (_ & Hl & _). rewrite Forall_forall in Hl. apply seg_cloud.
    + now rewrite !map_length.
    + apply Forall_map, Forall_forall. intros i Hi. apply (sd_ids fused D rows ids B cells g G). auto.
    + apply Forall_map, Forall_forall. intros i Hi. pose proof (ic_rows _ _ _ _ _ _ _ C) as F. rewrite Forall_forall in F. apply F, nth_In. rewrite (ic_len _ _ _ _ _ _ _ C). auto.
Qed.

(** C74, refuted without the reduction of the radius. Four points that float32
    represents, cells and radius 165/128: with two roundings, on every device
    and for every schedule, two points are selected whose distance is less than
    4/5 of the radius. *)
Lemma C74_close_refuted_proof :
  exists rows ids p c,
    cloud GPU 0 2 rows ids 1 p /\ float32_batch 2 rows ids /\ is_float32 c /\ valid_sizes 2 [c] /\
    forall active sactive warp time mode, (forall x, active x <> 0) -> (forall k, sactive k <> 0) -> warp <> 0 -> (exists q, 2 ^ 8 * 2 = q * (2 * warp)) ->
      means mode poisson_names ->
      mk_grid_gpu32 false (active KKeys) warp p [c] (fun g =>
        mk_nbh_gpu32 false active warp time g [c] 0 (fun n =>
          sample_gpu sactive warp n mode (fun q o => exists sel i j, o = Some sel /\ In i sel /\ In j sel /\ i <> j /\
            inside_ellipsoid 2 (times_radii (4 / 5) (all_dims 2 [c])) rows ids rows ids i j))).
Proof.
  exists ex72_rows, ex72_ids, ex72_cloud, (165#128).
  split; [exact ex72_is|]. split; [exact ex72_batch|]. split; [reflexivity|]. split; [exact ex72_sizes|].
  intros active sactive warp time mode Ha Hs Hw Hq Hmode.
  assert (Sup : supported 2) by (unfold supported; lia).
  pose proof (cloud_is _ _ _ _ _ _ _ ex72_is) as C0.
  apply (mk_grid_gpu32_ok false (active KKeys) warp 0 2 ex72_rows ex72_ids 1); auto; [discriminate|exact ex72_sizes|].
  intros g G. destruct (ex72_grid false g G) as (En & Ek).
  assert (Es : gsidx g = [3; 2; 1; 0]) by (rewrite (dg_sidx _ _ _ _ _ _ _ G), Ek; vm_compute; reflexivity).
  assert (Hne : ex72_ids <> []) by discriminate.
  set (cells := bcast 2 (map f32 [165#128])) in *.
  destruct (sd_sorted_cloud false 2 ex72_rows ex72_ids 1 cells g G Hne) as (Eo & Cs & Hids & Hcne).
  pose proof (sd_sbids_len false 2 ex72_rows ex72_ids 1 cells g G) as Lb.
  unfold mk_nbh_gpu32. cbv zeta. destruct (dg_cloud _ _ _ _ _ _ _ G) as (eps' & C). rewrite (ic_dim _ _ _ _ _ _ _ C).
  exists (seg 2 (gspts g) (gsbids g) 1). split; [exact Eo|].
  assert (Ep : gspts g = rev ex72_rows) by (rewrite (dg_spts _ _ _ _ _ _ _ G), Es; reflexivity).
  assert (Eb : gsbids g = ex72_ids) by (rewrite (dg_sbids _ _ _ _ _ _ _ G), Es; reflexivity).
  assert (Lr : length (bcast 2 (map f32 [165#128])) = 2) by reflexivity.
  apply (find_neighbors_gpu32_ok false active warp time 2 ex72_rows ex72_ids 1 cells g 0 (gspts g) (gsbids g) 1); auto.
  { rewrite Lb. cbn [length ex72_ids]. change (2 ^ 8 * 2) with 512. lia. }
  rewrite Lb. intros ends nbs D1 _ D3 D4.
  assert (Pc : forall j, j < 4 -> nth 0 (sd_pcells false 2 ex72_rows ex72_ids cells g j) 0%Z = nth j [10; 4; 2; 0]%Z 0%Z).
  { intros j Hj. unfold sd_pcells, sd_cells. rewrite QFacts.nth_map_seq by lia. unfold dcell. rewrite En, Es. do 4 (destruct j as [|j]; [vm_compute; reflexivity|]). lia. }
  assert (Self : forall j i, In (j, i) nbs -> j = i).
  { intros j i H. destruct (D3 j i H) as (Hi & Hj & _ & _ & A & _). change (length ex72_ids) with 4 in Hi, Hj.
    rewrite (same_cell false 2 ex72_rows ex72_ids 1 cells g G i Hi) in A. rewrite !Pc in A by assumption.
    do 4 (destruct j as [|j]; [do 4 (destruct i as [|i]; [first [reflexivity|exfalso; apply A; reflexivity]|]); lia|]). lia. }
  assert (Tiny : forall j i, inside_ellipsoid 2 [1#2;1#2] (gspts g) (gsbids g) (gspts g) (gsbids g) j i -> j = i).
  { rewrite Ep, Eb. intros j i (Hj & Hi & _ & H). change (length ex72_ids) with 4 in Hi, Hj.
    do 4 (destruct j as [|j]; [do 4 (destruct i as [|i]; [first [reflexivity|exfalso; vm_compute in H; discriminate]|]); lia|]). lia. }
  assert (Pos : forall d, d < 2 -> (0 < nth d [1#2;1#2] 1)%Q) by (intros d Hd; destruct d as [|[|d]]; [reflexivity..|lia]).
  assert (Lt : Forall (fun i => i < length (gsidx g)) (map fst nbs)).
  { apply Forall_map, Forall_forall. intros [j i] Hi. apply D3 in Hi. destruct Hi as (_ & Hi & _). rewrite (sd_sidx_len false 2 ex72_rows ex72_ids 1 cells g G). exact Hi. }
  eexists. split; [unfold original_ids; rewrite (gather_map _ _ 0 Lt); reflexivity|].
  apply (poisson_gpu32 false 2 ex72_rows ex72_ids 1 cells g ltac:(lia) G Hne) with (small := [1#2;1#2]) (large := [1#2;1#2]); auto.
  - intros j i H. pose proof (Self j i H) as ->. apply ellipsoid_self; auto. destruct (D3 i i H) as (Hi & _). now rewrite Lb.
  - intros j i H. pose proof (Tiny j i H) as ->. destruct H as (Hi & _). rewrite Lb in Hi. apply D4; auto.
    + rewrite Ep. change (length ex72_ids) with 4 in Hi. do 4 (destruct i as [|i]; [vm_compute; reflexivity|]). lia.
    + intros d Hd. rewrite (same_cell false 2 ex72_rows ex72_ids 1 cells g G i Hi). lia.
  - intros j i d H Hd. rewrite (Tiny j i H). lia.
  - intros sel (_ & _ & _ & Cov). exists sel, 1, 2. split; [reflexivity|].
    assert (Tiny' : forall j i, inside_ellipsoid 2 [1#2;1#2] ex72_rows ex72_ids ex72_rows ex72_ids j i -> j = i).
    { intros j i (Hj & Hi & _ & H). change (length ex72_ids) with 4 in Hi, Hj.
      do 4 (destruct j as [|j]; [do 4 (destruct i as [|i]; [first [reflexivity|exfalso; vm_compute in H; discriminate]|]); lia|]). lia. }
    split; [destruct (Cov 1 ltac:(cbn; lia)) as (i & Hi & H); now rewrite (Tiny' _ _ H)|].
    split; [destruct (Cov 2 ltac:(cbn; lia)) as (i & Hi & H); now rewrite (Tiny' _ _ H)|]. split; [discriminate|].
    repeat split; vm_compute; reflexivity || lia.
Qed.

(** The cloud of three points of C73, for which the first two are too close to
    be selected both. *)
Example C74_sample_partial_ex_proof :
  cloud GPU 0 2 ex73_rows ex73_ids 1 ex73_cloud /\ valid_sizes 2 (map f32 [1#1]) /\
  let c d := nth d (all_dims 2 (map f32 [1#1])) 0%Q in
  (forall d, (d < 2)%nat -> pow2 (-100) <= c d /\ c d <= c d /\ c d <= pow2 100)%Q /\
  (forall d, d < 2 ->
     (forall i, (i < length ex73_ids)%nat -> Qabs (xc ex73_rows i d) <= inject_Z 3 * c d)%Q /\
     (forall b lo, In b ex73_ids -> lower_corner32 2 ex73_rows ex73_ids b lo -> Qabs (nth d lo 0) <= inject_Z 3 * c d)%Q) /\
  forall sel, spread_sample 2 (times_radii (1 - (inject_Z 3 + 4) / 1048576) (all_dims 2 (map f32 [1#1]))) (times_radii (1 + 4 / 1048576) (all_dims 2 (map f32 [1#1]))) ex73_rows ex73_ids sel ->
    In 2 sel /\ (In 0 sel <-> ~ In 1 sel).
Proof.
  destruct C73_search_partial_ex_proof as (H1 & H2 & H3 & H4 & _). split; [exact H1|]. split; [exact H2|]. cbv zeta in *. split; [exact H3|]. split; [exact H4|].
  intros sel (_ & Hl & Ap & Cov). rewrite Forall_forall in Hl.
  assert (K : In 2 sel). { destruct (Cov 2 ltac:(cbn; lia)) as (i & Hi & H). pose proof (Hl i Hi) as Li. change (length ex73_ids) with 3 in Li.
    destruct H as (_ & _ & _ & H). destruct i as [|[|[|i]]]; [vm_compute in H; discriminate..|exact Hi|lia]. }
  split; [exact K|]. split.
  - intros I0 I1. apply (Ap 0 1 I0 I1 ltac:(discriminate)). repeat split; vm_compute; reflexivity || lia.
  - intros N1. destruct (Cov 0 ltac:(cbn; lia)) as (i & Hi & H). pose proof (Hl i Hi) as Li. change (length ex73_ids) with 3 in Li.
    destruct H as (_ & _ & _ & H). destruct i as [|[|[|i]]]; [exact Hi|contradiction|vm_compute in H; discriminate|lia].
Qed.
