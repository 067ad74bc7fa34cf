(** Proofs of the properties of the CUDA sampling (C44, C45). The statements
    are copied into PropertiesGpuSampling.v. *)
From Coq Require Import String List Arith ZArith NArith QArith Qround Lia Lqa Bool Permutation.
From Verif Require Import Tensor TensorFacts Spec PointCloud SpecCloud History PointCloudFacts QFacts Grid SpecGrid GridFacts Neighbors SpecNeighbors NeighborFacts NeighborProofs Neighborhood NeighborhoodFacts Sampling SpecSampling SamplingFacts SamplingProofs
  Cuda CudaFacts AddFacts GpuGrid GpuGridFacts GpuGridProofs GpuScan SpecGpu GpuNeighbors GpuCountFacts SlotFacts GpuStoreFacts GpuNeighborFacts GpuRangeFacts GpuGeometry GpuSearchFacts GpuNeighborProofs
  GpuSampling UniqueFacts PoissonFacts SampleFacts SpecGpuSampling GpuSampleFacts.
Import ListNotations.
Local Open Scope nat_scope.

Lemma to_nats_of l : to_nats (map Z.of_nat l) = Some l.
Proof.
  unfold to_nats. replace (forallb _ _) with true.
  - rewrite map_map. rewrite (map_ext _ (fun x => x)) by (intros; apply Nat2Z.id). now rewrite map_id.
  - symmetry. apply forallb_forall. intros z Hz. apply in_map_iff in Hz. destruct Hz as (x & <- & _). apply Z.leb_le. lia.
Qed.

(** ** Poisson disk sampling *)
Lemma poisson_gpu (active : skernel -> nat) warp eps D rows ids B cs g n radii mode (P : pc -> option (list nat) -> Prop) :
  (forall k, active k <> 0) -> warp <> 0 -> 2 <= D <= 6 -> ids <> [] -> is_gpu_grid eps D rows ids B (bcast D cs) g -> ngrid n = g ->
  valid_sizes D radii -> (forall d, (d < D)%nat -> nth d (bcast D radii) 1 <= nth d (bcast D cs) 1)%Q ->
  delimits (rdata (nranges n)) (nnbs n) (length ids) ->
  (forall j i, In (j, i) (nnbs n) <-> inside_ellipsoid D (bcast D radii) (gspts g) (gsbids g) (gspts g) (gsbids g) j i) ->
  means mode poisson_names ->
  (forall sel, ellipsoid_sample D (bcast D radii) rows ids sel ->
     P (seg D (map (fun i => nth i rows []) sel) (map (fun i => nth i ids 0) sel) (bsize (nsampled n))) (Some sel)) ->
  sample_gpu active warp n mode P.
Proof.
  intros Ha Hw HD Hne G En Hr Hle Hd Hn Hm HP. pose proof (valid_sizes_pos D radii Hr) as [Lr Pr].
  pose proof (sbids_len eps D rows ids B (bcast D cs) g G) as Lb.
  unfold sample_gpu. exists 0. split; [now apply sample_mode_poisson|]. unfold sampling_gpu. cbv zeta. rewrite En.
  rewrite (ic_dim _ _ _ _ _ _ _ (gg_cloud _ _ _ _ _ _ _ G)).
  apply op_poisson with (eps := eps) (rows := rows) (ids := ids) (B := B) (cells := bcast D cs) (radii := bcast D radii); auto.
  { intros d Hd'. rewrite (nth_indep _ 1%Q 0%Q) by lia. apply (Pr d Hd'). }
  intros sel Hs. exists (map (fun i => nth i (gsbids g) 0) sel). split.
  { rewrite <- (map_map (fun i => nth i (gsbids g) 0) Z.of_nat). apply to_nats_of. }
  pose proof Hs as (_ & Hl & _). rewrite Lb in Hl. exists (Some (map (fun i => nth i (gsidx g) 0) sel)). split.
  { cbn [Nat.eqb]. exists sel. eexists. split; [apply to_nats_of|]. split; [|reflexivity]. apply gather_map. now rewrite (gg_sidx_length _ _ _ _ _ _ _ G). }
  eexists. split; [apply (sampled_cloud_ok n D); [rewrite En; apply (ic_dim _ _ _ _ _ _ _ (gg_cloud _ _ _ _ _ _ _ G))|now rewrite !map_length]|].
  pose proof (sample_original eps D rows ids B (bcast D cs) g G _ _ Hs) as Ho. specialize (HP _ Ho). rewrite !map_map in HP. rewrite Forall_forall in Hl.
  rewrite (map_ext_in (fun i => nth i (gspts g) []) (fun j => nth (nth j (gsidx g) 0) rows [])) by (intros i Hi; apply (gg_spts_nth _ _ _ _ _ _ _ G); auto).
  rewrite (map_ext_in (fun i => nth i (gsbids g) 0) (fun j => nth (nth j (gsidx g) 0) ids 0)) by (intros i Hi; apply (gg_sbids_nth _ _ _ _ _ _ _ G); auto).
  exact HP.
Qed.

Lemma mk_nbh_gpu_ok (active : kernel -> nat) warp time eps D rows ids B cs g radii (P : nbh -> Prop) :
  (forall x, active x <> 0) -> warp <> 0 -> (exists q, 2 ^ 8 * 2 = q * (2 * warp)) ->
  2 <= D <= 6 -> ids <> [] -> is_gpu_grid eps D rows ids B (bcast D cs) g -> valid_sizes D cs -> valid_sizes D radii ->
  (forall d, (d < D)%nat -> nth d (bcast D radii) 1 <= nth d (bcast D cs) 1)%Q ->
  length ids <= 2 ^ 8 * 2 + active KScan * (2 * warp) ->
  (D <= 3 \/ (3 <= nth (D - 1) (gnc g) 0)%Z) ->
  (forall n, ngrid n = g -> bsize (nsampled n) = B -> delimits (rdata (nranges n)) (nnbs n) (length ids) ->
     (forall j i, In (j, i) (nnbs n) <-> inside_ellipsoid D (bcast D radii) (gspts g) (gsbids g) (gspts g) (gsbids g) j i) -> P n) ->
  mk_nbh_gpu active warp time g radii 0 P.
Proof.
  intros Ha Hw Hq HD Hne G Hv Hr Hle Hlen Hlast HP. unfold mk_nbh_gpu. cbv zeta. pose proof (gg_cloud _ _ _ _ _ _ _ G) as C. rewrite (ic_dim _ _ _ _ _ _ _ C).
  pose proof (sbids_len eps D rows ids B (bcast D cs) g G) as Lb. pose proof (gg_spts_length _ _ _ _ _ _ _ G) as Lp.
  assert (Hids : Forall (fun b => b < B) (gsbids g)).
  { rewrite (gg_sbids _ _ _ _ _ _ _ G). apply Forall_map, Forall_forall. intros i Hi. apply (gg_id_lt _ _ _ _ _ _ _ G).
    apply (Permutation_in _ (gg_sidx_perm _ _ _ _ _ _ _ G)), in_seq in Hi. lia. }
  assert (Hb : 0 < B). { pose proof (ic_ids _ _ _ _ _ _ _ C) as F. destruct ids; [congruence|]. inversion F; subst. lia. }
  exists (seg D (gspts g) (gsbids g) B). split.
  { unfold sorted_cloud, init. rewrite (ic_dim _ _ _ _ _ _ _ C), (ic_bsize _ _ _ _ _ _ _ C). cbn. rewrite Lb, Lp, Nat.eqb_refl. reflexivity. }
  assert (Cs : is_cloud GPU eps D (gspts g) (gsbids g) B (seg D (gspts g) (gsbids g) B)).
  { apply cloud_is, seg_cloud; auto; try lia. rewrite (gg_spts _ _ _ _ _ _ _ G). apply Forall_map, Forall_forall. intros i Hi.
    pose proof (ic_rows _ _ _ _ _ _ _ C) as F. rewrite Forall_forall in F. apply F, nth_In. rewrite (gg_len _ _ _ _ _ _ _ G). apply (Permutation_in _ (gg_sidx_perm _ _ _ _ _ _ _ G)), in_seq in Hi. lia. }
  assert (Eb : bcast D (bcast D radii) = bcast D radii).
  { destruct Hr as [Lr _]. change (all_dims D radii) with (bcast D radii) in Lr. unfold bcast at 1. destruct (bcast D radii) as [|x [|y r]] eqn:E; auto.
    cbn in Lr. subst D. lia. }
  apply search_grid with (eps := eps) (D := D) (rows := rows) (ids := ids) (B := B) (cs := cs) (ceps := eps) (crows := gspts g) (cids := gsbids g) (CB := B); auto; try lia.
  - intros E. rewrite E in Lb. cbn in Lb. destruct ids; [congruence|discriminate].
  - split; [|]; change (all_dims D (bcast D radii)) with (bcast D (bcast D radii)); rewrite Eb; apply Hr.
  - rewrite Eb. auto.
  - intros ends nbs (H1 & _ & H3). rewrite Eb in H3. rewrite Lb in H1.
    assert (Lt : Forall (fun i => i < length (gsidx g)) (map fst nbs)).
    { apply Forall_map, Forall_forall. intros [j i] Hi. apply H3 in Hi. destruct Hi as (Hi & _). rewrite (gg_sidx_length _ _ _ _ _ _ _ G), <- Lb. exact Hi. }
    eexists. split; [unfold original_ids; rewrite (gather_map _ _ 0 Lt); reflexivity|]. apply HP; auto.
Qed.

(** C44. For every cloud of dimension 2 to 6 with a grid built by the CUDA
    operations, and every neighborhood of the grid with itself whose list has
    exactly the pairs of points inside the ellipsoid of the radii (repeated
    rows are allowed), the radii being at most the cell sizes: for every
    interleaving of the threads of every kernel launch on a device of any size,
    Poisson disk sampling completes and the returned indices are a Poisson disk
    sample: none is in the ellipsoid of another one and every point is in the
    ellipsoid of one. The returned points and elements are those at the
    returned indices. *)
Lemma C44_poisson_proof :
  forall gactive active warp eps D rows ids B cs p radii mode,
    gactive <> 0 -> (forall k, active k <> 0) -> warp <> 0 -> 2 <= D <= 6 -> ids <> [] ->
    cloud GPU eps D rows ids B p -> valid_sizes D cs -> valid_sizes D radii ->
    (forall d, (d < D)%nat -> nth d (all_dims D radii) 1 <= nth d (all_dims D cs) 1)%Q ->
    means mode poisson_names ->
    mk_grid_gpu gactive warp eps p cs (fun g => forall n,
      ngrid n = g -> delimits (rdata (nranges n)) (nnbs n) (length ids) ->
      (forall j i, In (j, i) (nnbs n) <-> inside_ellipsoid D (all_dims D radii) (gspts g) (gsbids g) (gspts g) (gsbids g) j i) ->
      sample_gpu active warp n mode (fun q o => exists sel, o = Some sel /\
        ellipsoid_sample D (all_dims D radii) rows ids sel /\
        pts q = map (fun i => nth i rows []) sel /\ bids q = map (fun i => nth i ids 0) sel)).
Proof.
  intros gactive active warp eps D rows ids B cs p radii mode Hg Ha Hw HD Hne Hc Hv Hr Hle Hm. apply cloud_is in Hc.
  apply mk_grid_gpu_ok with (D := D) (rows := rows) (ids := ids) (B := B); auto.
  intros g G n En Hd Hn. apply poisson_gpu with (eps := eps) (D := D) (rows := rows) (ids := ids) (B := B) (cs := cs) (g := g) (radii := radii); auto.
  intros sel Hs. exists sel. auto.
Qed.

Lemma pipeline_gpu (active : kernel -> nat) (sactive : skernel -> nat) warp time eps D rows ids B cs p radii mode (P : grid -> pc -> option (list nat) -> Prop) :
  (forall k, active k <> 0) -> (forall k, sactive k <> 0) -> warp <> 0 -> (exists q, 2 ^ 8 * 2 = q * (2 * warp)) ->
  2 <= D <= 6 -> ids <> [] -> cloud GPU eps D rows ids B p -> valid_sizes D cs -> valid_sizes D radii ->
  (forall d, (d < D)%nat -> nth d (bcast D radii) 1 <= nth d (bcast D cs) 1)%Q ->
  length ids <= 2 ^ 8 * 2 + active KScan * (2 * warp) -> means mode poisson_names ->
  (forall g sel, ellipsoid_sample D (bcast D radii) rows ids sel ->
     P g (seg D (map (fun i => nth i rows []) sel) (map (fun i => nth i ids 0) sel) B) (Some sel)) ->
  mk_grid_gpu (active KKeys) warp eps p cs (fun g =>
    (D <= 3 \/ (3 <= nth (D - 1) (gnc g) 0)%Z) ->
    mk_nbh_gpu active warp time g radii 0 (fun n => sample_gpu sactive warp n mode (P g))).
Proof.
  intros Ha Hs Hw Hq HD Hne Hc Hv Hr Hle Hlen Hm HP. apply cloud_is in Hc.
  apply mk_grid_gpu_ok with (D := D) (rows := rows) (ids := ids) (B := B); auto.
  intros g G Hlast. apply mk_nbh_gpu_ok with (eps := eps) (D := D) (rows := rows) (ids := ids) (B := B) (cs := cs); auto.
  intros n En Eb Hd Hn. apply poisson_gpu with (eps := eps) (D := D) (rows := rows) (ids := ids) (B := B) (cs := cs) (g := g) (radii := radii); auto.
  intros sel Hsel. rewrite Eb. auto.
Qed.

(** C44. The same for all steps on the GPU: grid, neighborhood and sampling.
    Partial: with the conditions of C41 (a number of points that the prefix sum
    handles without a race, and three cells along the last axis in dimension 4
    to 6). The result is a point cloud of the same batch size. *)
Lemma C44_pipeline_partial_proof :
  forall active sactive warp time eps D rows ids B cs p radii mode,
    (forall k, active k <> 0) -> (forall k, sactive k <> 0) -> warp <> 0 -> (exists q, 2 ^ 8 * 2 = q * (2 * warp)) ->
    2 <= D <= 6 -> ids <> [] -> cloud GPU eps D rows ids B p -> valid_sizes D cs -> valid_sizes D radii ->
    (forall d, (d < D)%nat -> nth d (all_dims D radii) 1 <= nth d (all_dims D cs) 1)%Q ->
    length ids <= 2 ^ 8 * 2 + active KScan * (2 * warp) -> means mode poisson_names ->
    mk_grid_gpu (active KKeys) warp eps p cs (fun g =>
      (D <= 3 \/ (3 <= nth (D - 1) (gnc g) 0)%Z) ->
      mk_nbh_gpu active warp time g radii 0 (fun n =>
        sample_gpu sactive warp n mode (fun q o => exists sel, o = Some sel /\
          ellipsoid_sample D (all_dims D radii) rows ids sel /\
          cloud GPU eps D (map (fun i => nth i rows []) sel) (map (fun i => nth i ids 0) sel) B q))).
Proof.
  intros active sactive warp time eps D rows ids B cs p radii mode Ha Hs Hw Hq HD Hne Hc Hv Hr Hle Hlen Hm.
  apply pipeline_gpu with (D := D) (rows := rows) (ids := ids) (B := B); auto. intros _ sel Hsel. exists sel. split; auto. split; auto.
  pose proof (cloud_is _ _ _ _ _ _ _ Hc) as C. pose proof Hsel as (_ & Hl & _). rewrite Forall_forall in Hl. apply seg_cloud.
  - now rewrite !map_length.
  - apply Forall_map, Forall_forall. intros i Hi. pose proof (ic_ids _ _ _ _ _ _ _ C) as F. rewrite Forall_forall in F. apply F, nth_In. auto.
  - apply Forall_map, Forall_forall. intros i Hi. pose proof (ic_rows _ _ _ _ _ _ _ C) as F. rewrite Forall_forall in F. apply F, nth_In. rewrite (ic_len _ _ _ _ _ _ _ C). auto.
Qed.

(** ** Cell averages *)
Lemma fold_left_sum l : forall a, (fold_left Qplus l a == a + fold_right Qplus 0 l)%Q.
Proof.
  induction l as [|x l IH]; intros a; cbn [fold_left fold_right]; [lra|]. rewrite IH. lra.
Qed.
Lemma avg_point_mean D rows l : l <> [] -> is_mean D rows l (avg_point D (map (fun i => nth i rows []) l)).
Proof.
  intros Hl. split; [unfold avg_point; now rewrite map_length, seq_length|]. split; auto. intros d Hd. unfold avg_point. rewrite QFacts.nth_map_seq by auto.
  rewrite fold_left_sum, map_map, map_length. unfold coord, xc.
  assert (0 < inject_Z (Z.of_nat (length l)))%Q by (destruct l; [congruence|]; cbn [length]; unfold Qlt; cbn; lia). field. lra.
Qed.
Lemma mean_in_cell D rows lo cells grp p d z : is_mean D rows grp p -> (d < D)%nat -> (0 < nth d cells 0)%Q ->
  (forall i, In i grp -> cell lo cells (nth i rows []) d = z) -> cell lo cells p d = z.
Proof.
  intros (Lp & Hne & Hm) Hd Hc Hz. unfold cell in *. set (c := nth d cells 0%Q) in *. set (l := nth d lo 0%Q) in *.
  assert (Hpos : (0 < inject_Z (Z.of_nat (length grp)))%Q) by (destruct grp; [congruence|]; cbn [length]; unfold Qlt; cbn; lia).
  assert (Hb : forall i, In i grp -> (l + inject_Z z * c <= xc rows i d /\ xc rows i d < l + (inject_Z z + 1) * c)%Q).
  { intros i Hi. specialize (Hz i Hi). pose proof (Qfloor_le ((nth d (nth i rows []) 0 - l) / c)%Q) as F1. pose proof (Qlt_floor ((nth d (nth i rows []) 0 - l) / c)%Q) as F2.
    rewrite Hz in F1, F2. rewrite inject_Z_plus in F2. unfold xc. set (x := nth d (nth i rows []) 0%Q) in *.
    assert (Ex : (x - l == (x - l) / c * c)%Q) by (field; lra). split; [|change (inject_Z 1) with 1%Q in F2]; nra. }
  destruct (sum_bounds (fun i => xc rows i d) _ _ grp Hne Hb) as [S1 S2]. rewrite <- (Hm d Hd) in S1, S2. set (x := nth d p 0%Q) in *.
  set (w := inject_Z (Z.of_nat (length grp))) in *.
  assert (X1 : (l + inject_Z z * c <= x)%Q) by (apply (Qmult_le_l _ _ w Hpos); exact S1).
  assert (X2 : (x < l + (inject_Z z + 1) * c)%Q) by (apply (Qmult_lt_l _ _ w Hpos); exact S2).
  assert (Y1 : (z <= Qfloor ((x - l) / c))%Z) by (apply Qfloor_ge_iff, div_ge_iff; [exact Hc|lra]).
  assert (Y2 : (Qfloor ((x - l) / c) < z + 1)%Z).
  { apply Qfloor_lt_iff, div_lt_iff; [exact Hc|]. rewrite inject_Z_plus. change (inject_Z 1) with 1%Q. lra. }
  lia.
Qed.

Section Means.
  Variables (eps : Q) (D : nat) (rows : list point) (ids : list nat) (B : nat) (cells : point) (g : grid).
  Hypothesis G : is_gpu_grid eps D rows ids B cells g.
  Hypothesis He : (0 <= eps)%Q.
  Let n := length ids.
  Let clamped (i d : nat) : Z := Z.min (cell (lo_of eps D rows ids (nth i ids 0)) cells (nth i rows []) d) (nth d (gnc g) 0 - 1)%Z.

  Lemma key_same i j : i < n -> j < n ->
    (nth i (gkeys g) 0%Z = nth j (gkeys g) 0%Z <-> nth i ids 0 = nth j ids 0 /\ forall d, d < D -> clamped i d = clamped j d).
  Proof using G He.
    assert (Ec : forall i d, i < n -> d < D -> gcell eps D rows ids cells (gnc g) i d = clamped i d).
    { intros k d Hk Hd. unfold gcell, clamped. rewrite Z.max_l; [reflexivity|].
      apply raw_cell_nonneg; auto; [apply (gg_len _ _ _ _ _ _ _ G)|]. apply (gg_cells_pos _ _ _ _ _ _ _ G d Hd). }
    intros Hi Hj. rewrite (gg_key _ _ _ _ _ _ _ G i Hi), (gg_key _ _ _ _ _ _ _ G j Hj).
    pose proof (radix_range _ _ (gg_cells_in _ _ _ _ _ _ _ G i)). pose proof (radix_range _ _ (gg_cells_in _ _ _ _ _ _ _ G j)). split.
    - intros E. assert (Hb : nth i ids 0 = nth j ids 0) by nia. split; [exact Hb|]. rewrite Hb in E.
      assert (Hr : radix (gnc g) (map (gcell eps D rows ids cells (gnc g) i) (seq 0 D)) = radix (gnc g) (map (gcell eps D rows ids cells (gnc g) j) (seq 0 D))) by lia.
      apply radix_inj in Hr; [|apply (gg_cells_in _ _ _ _ _ _ _ G)|apply (gg_cells_in _ _ _ _ _ _ _ G)]. intros d Hd.
      rewrite <- !Ec by auto. rewrite <- (QFacts.nth_map_seq (gcell eps D rows ids cells (gnc g) i) D d 0%Z Hd), <- (QFacts.nth_map_seq (gcell eps D rows ids cells (gnc g) j) D d 0%Z Hd). now rewrite Hr.
    - intros [-> Hcc]. do 2 f_equal. apply map_ext_in. intros d Hd. apply in_seq in Hd. rewrite !Ec by (auto; lia). apply Hcc. lia.
  Qed.

  Let grp (s : nat) : list nat := map (fun j => nth j (gsidx g) 0) (cell_points (gskeys g) s).
  Variable A : list nat.
  Hypothesis HA : Permutation A (firsts_of (gskeys g)).
  Let out := map (fun s => avg_point D (map (fun j => nth j (gspts g) []) (cell_points (gskeys g) s))) A.
  Let out_ids := map (fun s => nth s (gsbids g) 0) A.

  Lemma means_groups :
    cell_groups D (fun i j => forall d, d < D -> clamped i d = clamped j d) ids (map grp A) /\
    forall k, k < length A -> is_mean D rows (nth k (map grp A) []) (nth k out []) /\
      (forall i, In i (nth k (map grp A) []) -> i < n /\ nth k out_ids 0 = nth i ids 0).
  Proof using G He HA.
    pose proof (gg_skeys_length _ _ _ _ _ _ _ G) as Lk. fold n in Lk.
    assert (Gr : forall i j k, i <= j <= k -> k < length (gskeys g) -> nth i (gskeys g) 0%Z = nth k (gskeys g) 0%Z -> nth j (gskeys g) 0%Z = nth i (gskeys g) 0%Z).
    { intros i j k. exact (keys_grouped eps D rows ids B cells g G i j k). }
    assert (Hs : forall s, In s A -> In s (firsts_of (gskeys g))) by (intros s I; eapply Permutation_in; eauto).
    assert (Cp : forall s p, In s A -> (In p (cell_points (gskeys g) s) <-> p < n /\ nth p (gskeys g) 0%Z = nth s (gskeys g) 0%Z)).
    { intros s p I. rewrite <- Lk. apply cell_points_in; auto. }
    assert (Sl : forall s, In s A -> s < n). { intros s I. apply Hs, firsts_in in I. lia. }
    assert (Ne : forall s, In s A -> cell_points (gskeys g) s <> []).
    { intros s I E. assert (In s (cell_points (gskeys g) s)) as X by (apply Cp; auto). rewrite E in X. destruct X. }
    split; [split; [|split]|].
    - rewrite <- flat_map_concat_map. unfold grp.
      transitivity (map (fun j => nth j (gsidx g) 0) (flat_map (cell_points (gskeys g)) A)).
      { rewrite (flat_map_concat_map (cell_points (gskeys g))), concat_map, map_map, flat_map_concat_map. reflexivity. }
      rewrite (Permutation_map _ (cells_perm _ Gr A HA)). rewrite Lk. unfold n. rewrite <- (gg_sidx_length _ _ _ _ _ _ _ G) at 1.
      rewrite TensorFacts.map_nth_seq. apply (gg_sidx_perm _ _ _ _ _ _ _ G).
    - apply Forall_map, Forall_forall. intros s I E. apply map_eq_nil in E. now apply (Ne s).
    - intros i j Hi Hj. rewrite <- (key_same i j Hi Hj).
      assert (Sx : forall i, i < n -> exists p, p < n /\ nth p (gsidx g) 0 = i).
      { intros k Hk. assert (I : In k (gsidx g)) by (eapply Permutation_in; [apply Permutation_sym, (gg_sidx_perm _ _ _ _ _ _ _ G)|apply in_seq; unfold n in *; lia]).
        apply (In_nth _ _ 0) in I. destruct I as (p & Hp & Ep). rewrite (gg_sidx_length _ _ _ _ _ _ _ G) in Hp. exists p. auto. }
      split.
      + intros (x & Hx & I & J). apply in_map_iff in Hx. destruct Hx as (s & <- & Is). apply in_map_iff in I, J. destruct I as (p & <- & Ip), J as (q & <- & Iq).
        apply Cp in Ip, Iq; auto. destruct Ip as (Lp & Ip), Iq as (Lq & Iq). rewrite <- !(gg_skeys_nth _ _ _ _ _ _ _ G) by auto. congruence.
      + intros E. destruct (Sx i Hi) as (p & Hp & <-), (Sx j Hj) as (q & Hq & <-). rewrite <- !(gg_skeys_nth _ _ _ _ _ _ _ G) in E by auto.
        destruct (first_of (gskeys g) p ltac:(lia)) as (s & Is & Es). assert (Ia : In s A) by (eapply Permutation_in; [apply Permutation_sym; eauto|auto]).
        exists (grp s). split; [now apply in_map|]. split; apply in_map_iff; eexists; (split; [reflexivity|]); apply Cp; auto; split; auto. congruence.
    - intros k Hk. assert (I : In (nth k A 0) A) by now apply nth_In.
      unfold out, out_ids. rewrite !(nth_indep (map _ A) [] (grp 0)) by now rewrite map_length.
      rewrite (map_nth grp). set (s := nth k A 0) in *.
      assert (E : nth k (map (fun s => avg_point D (map (fun j => nth j (gspts g) []) (cell_points (gskeys g) s))) A) [] = avg_point D (map (fun i => nth i rows []) (grp s))).
      { rewrite (nth_indep _ [] (avg_point D (map (fun j => nth j (gspts g) []) (cell_points (gskeys g) 0)))) by now rewrite map_length.
        rewrite (map_nth (fun s => avg_point D (map (fun j => nth j (gspts g) []) (cell_points (gskeys g) s)))). fold s. f_equal. unfold grp. rewrite map_map. apply map_ext_in.
        intros p Ip. apply Cp in Ip; auto. apply (gg_spts_nth _ _ _ _ _ _ _ G). unfold n in *; lia. }
      rewrite E. split.
      + apply avg_point_mean. intros X. apply map_eq_nil in X. now apply (Ne s).
      + intros i Hi. apply in_map_iff in Hi. destruct Hi as (p & <- & Ip). apply Cp in Ip; auto. destruct Ip as (Lp & Ip). split; [apply (gg_sidx_lt _ _ _ _ _ _ _ G); auto|].
        rewrite (nth_indep _ 0 ((fun s => nth s (gsbids g) 0) 0)) by now rewrite map_length. rewrite (map_nth (fun s => nth s (gsbids g) 0)). fold s.
        rewrite (gg_sbids_nth _ _ _ _ _ _ _ G) by auto. rewrite !(gg_skeys_nth _ _ _ _ _ _ _ G) in Ip by auto. symmetry. apply key_same; auto; apply (gg_sidx_lt _ _ _ _ _ _ _ G); auto.
  Qed.

  Lemma means_ok : cell_means eps D cells (fun d => nth d (gnc g) 0 - 1)%Z rows ids out out_ids.
  Proof using G He HA.
    destruct means_groups as (H1 & H2). exists (lo_of eps D rows ids), (map grp A).
    split; [intros b Hb; apply lo_corner; [apply (gg_len _ _ _ _ _ _ _ G)|exact Hb]|]. cbv zeta. split; [exact H1|]. unfold out, out_ids. rewrite !map_length. do 2 (split; [reflexivity|]).
    intros k Hk. destruct (H2 k Hk) as (X & Y). split; [exact X|]. intros i Hi. apply (Y i Hi).
  Qed.

  Lemma average_agrees : fits eps D cells rows ids -> cell_average eps D cells rows ids out out_ids.
  Proof using G He HA.
    intros Hfit. destruct means_groups as (H1 & H2). exists (lo_of eps D rows ids), (map grp A).
    split; [intros b Hb; apply lo_corner; [apply (gg_len _ _ _ _ _ _ _ G)|exact Hb]|]. cbv zeta.
    assert (Ec : forall i d, i < n -> d < D -> clamped i d = cell (lo_of eps D rows ids (nth i ids 0)) cells (nth i rows []) d).
    { intros i d Hi Hd. unfold clamped. apply Z.min_l.
      pose proof (raw_in eps D rows ids B cells (gbox g) (gg_len _ _ _ _ _ _ _ G) (ic_ids _ _ _ _ _ _ _ (gg_cloud _ _ _ _ _ _ _ G)) He (gg_cells_pos _ _ _ _ _ _ _ G)
        (gg_min _ _ _ _ _ _ _ G) (gg_max _ _ _ _ _ _ _ G) i d Hd Hi Hfit) as R. rewrite <- (gg_nc _ _ _ _ _ _ _ G) in R. unfold raw_cell, coord in R. unfold cell. lia. }
    assert (H1' : cell_groups D (fun i j => forall d, d < D -> cell (lo_of eps D rows ids (nth i ids 0)) cells (nth i rows []) d = cell (lo_of eps D rows ids (nth j ids 0)) cells (nth j rows []) d) ids (map grp A)).
    { destruct H1 as (X1 & X2 & X3). split; [auto|]. split; [auto|]. intros i j Hi Hj. rewrite (X3 i j Hi Hj). split; intros (Y1 & Y2); (split; [auto|]); intros d Hd; specialize (Y2 d Hd).
      - rewrite !Ec in Y2; auto.
      - rewrite !Ec; auto. }
    split; [exact H1'|]. unfold out, out_ids. rewrite !map_length. do 2 (split; [reflexivity|]). intros k Hk. destruct (H2 k Hk) as (X & Y). split; [exact X|].
    intros i Hi. destruct (Y i Hi) as (Li & Ei). split; [exact Ei|]. intros d Hd. apply mean_in_cell with (D := D) (rows := rows) (grp := nth k (map grp A) []); auto.
    - apply (gg_cells_pos _ _ _ _ _ _ _ G d Hd).
    - intros j Hj. destruct (Y j Hj) as (Lj & Ej). destruct H1' as (_ & _ & X3). apply (X3 j i Lj Li) in Hd as Z.
      + rewrite <- Z. now rewrite <- Ei, Ej.
      + exists (nth k (map grp A) []). split; [apply nth_In; now rewrite map_length|auto].
  Qed.
End Means.

Lemma average_gpu (active : skernel -> nat) warp eps D rows ids B cs g n mode (P : pc -> option (list nat) -> Prop) :
  (forall k, active k <> 0) -> warp <> 0 -> 2 <= D <= 6 -> ids <> [] -> is_gpu_grid eps D rows ids B (bcast D cs) g -> ngrid n = g ->
  length (rdata (nranges n)) = length ids -> means mode average_names ->
  (forall A, Permutation A (firsts_of (gskeys g)) ->
     P (seg D (map (fun s => avg_point D (map (fun j => nth j (gspts g) []) (cell_points (gskeys g) s))) A)
         (map (fun s => nth s (gsbids g) 0) A) (bsize (nsampled n))) None) ->
  sample_gpu active warp n mode P.
Proof.
  intros Ha Hw HD Hne G En Hl Hm HP. unfold sample_gpu. exists 1. split; [now apply sample_mode_average|]. unfold sampling_gpu. cbv zeta. rewrite En.
  rewrite (ic_dim _ _ _ _ _ _ _ (gg_cloud _ _ _ _ _ _ _ G)).
  apply op_average with (eps := eps) (rows := rows) (ids := ids) (B := B) (cells := bcast D cs); auto.
  intros A junk PA. exists (map (fun s => nth s (gsbids g) 0) A). split.
  { rewrite <- (map_map (fun s => nth s (gsbids g) 0) Z.of_nat). apply to_nats_of. }
  exists None. split; [reflexivity|].
  eexists. split; [apply (sampled_cloud_ok n D); [rewrite En; apply (ic_dim _ _ _ _ _ _ _ (gg_cloud _ _ _ _ _ _ _ G))|now rewrite !map_length]|]. auto.
Qed.

(** C45. For every cloud of dimension 2 to 6 with a grid built by the CUDA
    operations and every neighborhood of it with one range per point: for every
    interleaving of the threads of every kernel launch, cell average sampling
    returns for every occupied cell of every element one point, the mean of the
    points of the cell, with the element of these points, and no indices. A
    point on the far boundary of the grid belongs to the last cell. *)
Lemma C45_average_proof :
  forall gactive active warp eps D rows ids B cs p mode,
    gactive <> 0 -> (forall k, active k <> 0) -> warp <> 0 -> 2 <= D <= 6 -> ids <> [] ->
    cloud GPU eps D rows ids B p -> valid_sizes D cs -> (0 <= eps)%Q -> means mode average_names ->
    mk_grid_gpu gactive warp eps p cs (fun g => forall n,
      ngrid n = g -> length (rdata (nranges n)) = length ids ->
      sample_gpu active warp n mode (fun q o => o = None /\ dim q = D /\
        cell_means eps D (all_dims D cs) (fun d => nth d (gnc g) 0 - 1)%Z rows ids (pts q) (bids q))).
Proof.
  intros gactive active warp eps D rows ids B cs p mode Hg Ha Hw HD Hne Hc Hv He Hm. apply cloud_is in Hc.
  apply mk_grid_gpu_ok with (D := D) (rows := rows) (ids := ids) (B := B); auto.
  intros g G n En Hl. apply average_gpu with (eps := eps) (D := D) (rows := rows) (ids := ids) (B := B) (cs := cs) (g := g); auto.
  intros A PA. split; [reflexivity|]. split; [reflexivity|]. apply (means_ok eps D rows ids B (bcast D cs) g G He A PA).
Qed.

(** C45. When every point fits in the grid, the result meets the specification
    that C22 proves for the TensorFlow fallback: the cells are the same and
    every returned point is in its cell. *)
Lemma C45_agree_proof :
  forall gactive active warp eps D rows ids B cs p mode,
    gactive <> 0 -> (forall k, active k <> 0) -> warp <> 0 -> 2 <= D <= 6 -> ids <> [] ->
    cloud GPU eps D rows ids B p -> valid_sizes D cs -> (0 <= eps)%Q -> fits eps D (all_dims D cs) rows ids -> means mode average_names ->
    mk_grid_gpu gactive warp eps p cs (fun g => forall n,
      ngrid n = g -> length (rdata (nranges n)) = length ids ->
      sample_gpu active warp n mode (fun q o => o = None /\ dim q = D /\
        cell_average eps D (all_dims D cs) rows ids (pts q) (bids q))).
Proof.
  intros gactive active warp eps D rows ids B cs p mode Hg Ha Hw HD Hne Hc Hv He Hf Hm. apply cloud_is in Hc.
  apply mk_grid_gpu_ok with (D := D) (rows := rows) (ids := ids) (B := B); auto.
  intros g G n En Hl. apply average_gpu with (eps := eps) (D := D) (rows := rows) (ids := ids) (B := B) (cs := cs) (g := g); auto.
  intros A PA. split; [reflexivity|]. split; [reflexivity|]. apply (average_agrees eps D rows ids B (bcast D cs) g G He A PA Hf).
Qed.

(** ** Examples *)
Definition exN_inside j i := inside_ellipsoid 2 [1#1;1#1] exN_rows exN_ids exN_rows exN_ids j i.
Lemma exN_inside_table j i : exN_inside j i -> In (j, i) [(0,0);(0,1);(1,0);(1,1);(2,2);(3,3);(4,4);(4,5);(5,4);(5,5)].
Proof.
  intros (H1 & H2 & H3 & H4).
  destruct j as [|[|[|[|[|[|j]]]]]]; [..|cbn in H1; lia]; destruct i as [|[|[|[|[|[|i]]]]]];
    try (cbn in H2; lia); try discriminate H3; try (vm_compute in H4; discriminate H4); cbn; tauto.
Qed.
Lemma exN_ellipsoid sel : ellipsoid_sample 2 [1#1;1#1] exN_rows exN_ids sel ->
  In 2 sel /\ In 3 sel /\ (In 0 sel <-> ~ In 1 sel) /\ (In 4 sel <-> ~ In 5 sel).
Proof.
  intros (H1 & H2 & H3 & H4).
  assert (T : forall j, j < 6 -> exists i, In i sel /\ In (j, i) [(0,0);(0,1);(1,0);(1,1);(2,2);(3,3);(4,4);(4,5);(5,4);(5,5)]).
  { intros j Hj. destruct (H4 j Hj) as (i & Hi & I). exists i. split; auto. now apply exN_inside_table. }
  assert (N1 : In 0 sel -> ~ In 1 sel).
  { intros X Y. apply (H3 0 1 X Y); [lia|]. unfold inside_ellipsoid. cbn [length exN_ids exN_rows]. split; [lia|]. split; [lia|]. split; [reflexivity|vm_compute; reflexivity]. }
  assert (N2 : In 4 sel -> ~ In 5 sel).
  { intros X Y. apply (H3 4 5 X Y); [lia|]. unfold inside_ellipsoid. cbn [length exN_ids exN_rows]. split; [lia|]. split; [lia|]. split; [reflexivity|vm_compute; reflexivity]. }
  assert (I2 : In 2 sel) by (destruct (T 2 ltac:(lia)) as (i & Hi & I); cbn in I; repeat (destruct I as [I|I]; [try discriminate I; injection I as <-; tauto|]); destruct I).
  assert (I3 : In 3 sel) by (destruct (T 3 ltac:(lia)) as (i & Hi & I); cbn in I; repeat (destruct I as [I|I]; [try discriminate I; injection I as <-; tauto|]); destruct I).
  assert (I01 : In 0 sel \/ In 1 sel) by (destruct (T 0 ltac:(lia)) as (i & Hi & I); cbn in I; repeat (destruct I as [I|I]; [try discriminate I; injection I as <-; tauto|]); destruct I).
  assert (I45 : In 4 sel \/ In 5 sel) by (destruct (T 4 ltac:(lia)) as (i & Hi & I); cbn in I; repeat (destruct I as [I|I]; [try discriminate I; injection I as <-; tauto|]); destruct I).
  tauto.
Qed.
Lemma exN_cloud : cloud GPU (1#1000) 2 exN_rows exN_ids 2 (seg 2 exN_rows exN_ids 2).
Proof. apply seg_cloud; repeat constructor. Qed.
Lemma exN_sizes : valid_sizes 2 [1#1].
Proof. split; [reflexivity|repeat constructor]. Qed.

(** Six points in two elements: points 2 and 3 are always selected, and exactly
    one of 0 and 1 and one of 4 and 5. *)
Example C44_pipeline_partial_ex_proof :
  forall active sactive time, (forall k, active k <> 0) -> (forall k, sactive k <> 0) ->
  cloud GPU (1#1000) 2 exN_rows exN_ids 2 (seg 2 exN_rows exN_ids 2) /\
  mk_grid_gpu (active KKeys) 32 (1#1000) (seg 2 exN_rows exN_ids 2) [1#1] (fun g =>
    2 <= 3 \/ (3 <= nth (2 - 1) (gnc g) 0)%Z -> mk_nbh_gpu active 32 time g [1#1] 0 (fun n =>
      sample_gpu sactive 32 n "Poisson" (fun q o => exists sel, o = Some sel /\
        In 2 sel /\ In 3 sel /\ (In 0 sel <-> ~ In 1 sel) /\ (In 4 sel <-> ~ In 5 sel)))).
Proof.
  intros active sactive time Ha Hs. split; [apply exN_cloud|].
  apply (pipeline_gpu active sactive 32 time (1#1000) 2 exN_rows exN_ids 2 [1#1] (seg 2 exN_rows exN_ids 2) [1#1] "Poisson"
    (fun _ q o => exists sel, o = Some sel /\ In 2 sel /\ In 3 sel /\ (In 0 sel <-> ~ In 1 sel) /\ (In 4 sel <-> ~ In 5 sel)));
    [exact Ha|exact Hs|discriminate|exists 8; reflexivity|lia|discriminate|apply exN_cloud|apply exN_sizes|apply exN_sizes| | | |].
  - intros d _. apply Qle_refl.
  - specialize (Ha KScan). cbn. lia.
  - apply means_poisson. vm_compute. tauto.
  - intros _ sel Hsel. exists sel. split; [reflexivity|]. now apply exN_ellipsoid.
Qed.

(** A neighborhood of the sorted points with the right list and ends. *)
Definition exN_nbs : list (nat * nat) := [(0,0);(1,0);(0,1);(1,1);(2,2);(3,3);(4,4);(5,4);(4,5);(5,5)].
Definition exN_ends : list Z := [2;4;5;6;8;10]%Z.
Example C44_poisson_ex_proof :
  forall gactive active, gactive <> 0 -> (forall k, active k <> 0) ->
  mk_grid_gpu gactive 32 (1#1000) (seg 2 exN_rows exN_ids 2) [1#1] (fun g =>
    let n := Nbh g true (seg 2 (gspts g) (gsbids g) 2) [1#1;1#1] 0 (Ranges [6] exN_ends) exN_nbs exN_nbs in
    delimits exN_ends exN_nbs 6 /\
    (forall j i, In (j, i) exN_nbs <-> inside_ellipsoid 2 [1#1;1#1] (gspts g) (gsbids g) (gspts g) (gsbids g) j i) /\
    sample_gpu active 32 n "Poisson disk" (fun q o => exists sel, o = Some sel /\
        In 2 sel /\ In 3 sel /\ (In 0 sel <-> ~ In 1 sel) /\ (In 4 sel <-> ~ In 5 sel))).
Proof.
  intros gactive active Hg Ha. apply mk_grid_gpu_ok with (D := 2) (rows := exN_rows) (ids := exN_ids) (B := 2); [auto|discriminate|unfold supported; lia|discriminate|apply cloud_is, exN_cloud|apply exN_sizes|].
  intros g G n. destruct (grid_value_ok _ _ _ _ _ _ _ G) as (_ & _ & E3 & E4 & _ & _).
  assert (E3' : gspts g = [[1#2;1#2];[9#10;9#10];[3#1;3#1];[5#2;0#1];[0#1;0#1];[1#2;1#2]]) by (rewrite E3; vm_compute; reflexivity).
  assert (E4' : gsbids g = [1;1;0;0;0;0]) by (rewrite E4; vm_compute; reflexivity).
  assert (Hd : delimits exN_ends exN_nbs 6).
  { split; [reflexivity|]. split; [reflexivity|]. intros i Hi. destruct i as [|[|[|[|[|[|i]]]]]]; [cbn; (split; [lia|]; split; [lia|reflexivity])..|lia]. }
  assert (Hn : forall j i, In (j, i) exN_nbs <-> inside_ellipsoid 2 [1#1;1#1] (gspts g) (gsbids g) (gspts g) (gsbids g) j i).
  { rewrite E3', E4'. intros j i. split.
    - intros H. unfold exN_nbs in H. cbn [In] in H.
      repeat match type of H with _ \/ _ => destruct H as [H|H] end; try contradiction; injection H as <- <-;
        (split; [cbn; lia|]; split; [cbn; lia|]; split; [reflexivity|vm_compute; reflexivity]).
    - intros (H1 & H2 & H3 & H4). cbn [length] in H1, H2. destruct j as [|[|[|[|[|[|j]]]]]]; [..|lia]; destruct i as [|[|[|[|[|[|i]]]]]]; try lia;
        try discriminate H3; try (vm_compute in H4; discriminate H4); unfold exN_nbs; cbn [In]; tauto. }
  split; [exact Hd|]. split; [exact Hn|].
  apply poisson_gpu with (eps := 1#1000) (D := 2) (rows := exN_rows) (ids := exN_ids) (B := 2) (cs := [1#1]) (g := g) (radii := [1#1]);
    [exact Ha|discriminate|lia|discriminate|exact G|reflexivity|apply exN_sizes|intros; apply Qle_refl|exact Hd|exact Hn|apply means_poisson; vm_compute; tauto|].
  intros sel Hsel. exists sel. split; [reflexivity|]. now apply exN_ellipsoid.
Qed.

Lemma exN_average gactive active (P : pc -> option (list nat) -> Prop) : gactive <> 0 -> (forall k, active k <> 0) ->
  (forall q, Permutation (combine (map (map Qred) (pts q)) (bids q)) [([7#10;7#10],1);([3#1;3#1],0);([5#2;0#1],0);([1#4;1#4],0)] -> P q None) ->
  mk_grid_gpu gactive 32 (1#1000) (seg 2 exN_rows exN_ids 2) [1#1] (fun g => forall n, ngrid n = g -> length (rdata (nranges n)) = 6 ->
    sample_gpu active 32 n "Average" P).
Proof.
  intros Hg Ha HP. apply mk_grid_gpu_ok with (D := 2) (rows := exN_rows) (ids := exN_ids) (B := 2); [auto|discriminate|unfold supported; lia|discriminate|apply cloud_is, exN_cloud|apply exN_sizes|].
  intros g G n En Hl. destruct (grid_value_ok _ _ _ _ _ _ _ G) as (_ & E2 & E3 & E4 & _ & _).
  assert (E2' : gskeys g = [16;16;15;8;0;0]%Z) by (rewrite E2; vm_compute; reflexivity).
  assert (E3' : gspts g = [[1#2;1#2];[9#10;9#10];[3#1;3#1];[5#2;0#1];[0#1;0#1];[1#2;1#2]]) by (rewrite E3; vm_compute; reflexivity).
  assert (E4' : gsbids g = [1;1;0;0;0;0]) by (rewrite E4; vm_compute; reflexivity).
  apply average_gpu with (eps := 1#1000) (D := 2) (rows := exN_rows) (ids := exN_ids) (B := 2) (cs := [1#1]) (g := g);
    [exact Ha|discriminate|lia|discriminate|exact G|exact En|exact Hl|apply means_average; vm_compute; tauto|].
  intros A PA. rewrite E2' in PA. apply HP. rewrite E2', E3', E4'. unfold seg. cbn [pts bids].
  set (f := fun s => avg_point 2 (map (fun j => nth j [[1#2;1#2];[9#10;9#10];[3#1;3#1];[5#2;0#1];[0#1;0#1];[1#2;1#2]] []) (cell_points [16;16;15;8;0;0]%Z s))).
  transitivity (map (fun s => (map Qred (f s), nth s [1;1;0;0;0;0] 0)) A).
  { clear. induction A as [|a A IH]; [reflexivity|]. cbn [map combine]. now constructor. }
  rewrite (Permutation_map _ PA). subst f. vm_compute. apply Permutation_refl.
Qed.
(** The four occupied cells of the six points: the means are those that C22
    computes for the fallback, in an order that depends on the schedule. *)
Example C45_average_ex_proof :
  forall gactive active, gactive <> 0 -> (forall k, active k <> 0) ->
  cloud GPU (1#1000) 2 exN_rows exN_ids 2 (seg 2 exN_rows exN_ids 2) /\
  mk_grid_gpu gactive 32 (1#1000) (seg 2 exN_rows exN_ids 2) [1#1] (fun g => forall n, ngrid n = g -> length (rdata (nranges n)) = 6 ->
    sample_gpu active 32 n "Average" (fun q o =>
      Permutation (combine (map (map Qred) (pts q)) (bids q)) [([7#10;7#10],1);([3#1;3#1],0);([5#2;0#1],0);([1#4;1#4],0)])).
Proof. intros gactive active Hg Ha. split; [apply exN_cloud|]. apply exN_average; auto. Qed.
Example C45_agree_ex_proof :
  fits (1#1000) 2 (all_dims 2 [1#1]) exN_rows exN_ids /\ means "CELL average" average_names.
Proof.
  split; [|apply means_average; vm_compute; tauto]. destruct exN_usable as (g & Hu & _). apply Hu.
Qed.
