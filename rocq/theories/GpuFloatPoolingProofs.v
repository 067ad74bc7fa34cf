(** Proofs about local pooling with the CUDA operations entirely in float32 (C81).
    The statements are copied into PropertiesGpuFloatPooling.v. *)
From Coq Require Import String List Arith ZArith NArith QArith Qround Qabs Qreals Reals Lia Lra Bool Permutation Sorted.
From Verif Require Import Tensor TensorFacts Spec PointCloud SpecCloud History PointCloudFacts QFacts CloudProofs
  Grid SpecGrid GridFacts GridProofs Neighbors SpecNeighbors NeighborFacts NeighborProofs Neighborhood NeighborhoodFacts SamplingFacts SamplingProofs
  RTensor RTensorFacts Layers SpecLayers LayerFacts LayerLink LayerProofs FloatNorm FloatLayers SpecFloatLayers FloatPoolProofs FloatPooling FloatPoolingProofs
  Cuda CudaFacts AddFacts GpuGrid GpuGridFacts GpuGridProofs GpuScan SpecGpu GpuNeighbors GpuCountFacts SlotFacts GpuStoreFacts
  GpuNeighborFacts GpuOpFacts GpuRangeFacts GpuGeometry GpuSearchFacts GpuNeighborProofs
  Float FloatFacts FloatGrid SpecFloat FloatGridFacts FloatProofs FloatSampleProofs GpuFloat SpecGpuFloat GpuFloatProofs GpuFloatSearch GpuNearFacts GpuFloatSearchProofs
  CudaLayers GpuFloatPooling SpecGpuFloatPooling.
Import ListNotations.
Local Open Scope nat_scope.

(** The layer from the pairs on. *)
Lemma rows_pooled g n N nbs C F cp srt pad red : Permutation (gsidx g) (seq 0 n) -> (forall j i, In (j, i) nbs -> j < n /\ i < N) ->
  exists orig, original_ids g nbs = Ok orig /\
    (nb <- tgather (ttab [n; C] (fun idx => match idx with [i; j] => fval F i j | _ => 0%R end)) (map fst orig) ;;
     o <- tsegment GPU red nb (map snd orig) N ;;
     layer_output o cp srt pad) = returned cp srt pad C (table N C (fun i c => red (map (fun j => fval F j c) (found_for g nbs i)))).
Proof.
  intros Pm Hn.
  assert (Li : length (gsidx g) = n) by (rewrite (Permutation_length Pm), seq_length; reflexivity).
  assert (Lt : forall j, j < n -> nth j (gsidx g) 0 < n).
  { intros j Hj. assert (X : In (nth j (gsidx g) 0) (gsidx g)) by (apply nth_In; lia). apply (Permutation_in _ Pm), in_seq in X. lia. }
  set (orig := map (fun q => (nth (fst q) (gsidx g) 0, snd q)) nbs).
  assert (O1 : Forall (fun j => j < n) (map fst orig)).
  { apply Forall_map, Forall_map, Forall_forall. intros [j i] H. cbn [fst snd]. apply Lt, (Hn j i H). }
  assert (O2 : Forall (fun i => i < N) (map snd orig)).
  { apply Forall_map, Forall_map, Forall_forall. intros [j i] H. cbn [fst snd]. apply (Hn j i H). }
  exists orig. split.
  { assert (Ll : Forall (fun i => i < length (gsidx g)) (map fst nbs)).
    { apply Forall_map, Forall_forall. intros [j i] Hj. rewrite Li. now apply (Hn j i). }
    unfold original_ids. rewrite (gather_map _ _ 0 Ll). cbn [bind]. unfold orig. f_equal.
    clear. induction nbs as [|q l IH]; [reflexivity|]. cbn [map combine]. now rewrite IH. }
  rewrite tgather_ttab by exact O1. cbn [bind]. rewrite map_length.
  rewrite tsegment_ttab by (try exact O2; apply map_length). cbn [bind].
  rewrite layer_output_table. f_equal. unfold table. apply map_ext_in. intros i _. apply map_ext. intros c. f_equal.
  unfold found_for. rewrite map_map.
  rewrite (filter_ext _ (fun k => snd (nth k orig (0, 0)) =? i)) by (intros k; now rewrite (map_nth snd orig (0, 0))).
  transitivity (map (fun q => fval F (fst q) c) (filter (fun q => snd q =? i) orig)).
  - rewrite <- (positions_map (0, 0) (fun q => snd q =? i) (fun q => fval F (fst q) c)). apply map_ext. intros k. now rewrite (map_nth fst orig (0, 0)).
  - unfold orig. clear. induction nbs as [|q l IH]; [reflexivity|]. cbn [map filter snd]. destruct (snd q =? i); cbn [map fst snd]; [f_equal|]; exact IH.
Qed.
Lemma sizes_once D l : 2 <= D -> valid_sizes D (map f32 l) -> valid_sizes D (map f32 (bcast D l)).
Proof.
  intros HD H. unfold valid_sizes in *. change (all_dims D (map f32 (bcast D l))) with (bcast D (map f32 (bcast D l))). rewrite bcast_rounded by exact HD. exact H.
Qed.
Lemma bcast_twice D l : 2 <= D -> bcast D (bcast D l) = bcast D l.
Proof.
  intros HD. destruct l as [|x [|y l]]; try reflexivity. change (bcast D [x]) with (repeat x D). destruct D as [|[|D]]; [lia..|reflexivity].
Qed.

Section Between.
  Context (fused : bool) (D : nat) (rows : list point) (ids : list nat) (B : nat) (cells : point) (g : grid).
  Context (crows : list point) (cids : list nat) (small large : list Q) (nbs : list (nat * nat)).
  Hypothesis G : is_device_grid fused D rows ids B cells g.
  Hypothesis Nd : NoDup nbs.
  Hypothesis N1 : forall j i, In (j, i) nbs -> inside_ellipsoid D large (gspts g) (gsbids g) crows cids j i.
  Hypothesis N2 : forall j i, inside_ellipsoid D small (gspts g) (gsbids g) crows cids j i -> In (j, i) nbs.

  Lemma sorted_inside rad j i : j < length ids -> inside_ellipsoid D rad (gspts g) (gsbids g) crows cids j i <-> inside_ellipsoid D rad rows ids crows cids (nth j (gsidx g) 0) i.
  Proof using G.
    intros Hj. unfold inside_ellipsoid. rewrite (sd_spt fused D rows ids B cells g G j Hj), (sd_sbid fused D rows ids B cells g G j Hj), (sd_sbids_len fused D rows ids B cells g G).
    assert (X := sd_sidx_lt fused D rows ids B cells g G j Hj). tauto.
  Qed.
  Lemma device_between i : ellipsoids_between D small large rows ids crows cids i (found_for g nbs i).
  Proof using G Nd N1 N2.
    assert (Pm := sd_perm fused D rows ids B cells g G). assert (Li := sd_sidx_len fused D rows ids B cells g G).
    assert (Lb := sd_sbids_len fused D rows ids B cells g G).
    assert (Ns : NoDup (gsidx g)) by (apply (Permutation_NoDup (Permutation_sym Pm)), seq_NoDup).
    unfold found_for. split; [|split].
    - assert (H : forall l, NoDup l -> (forall j i', In (j, i') l -> j < length ids /\ i' = i) -> NoDup (map (fun q : nat * nat => nth (fst q) (gsidx g) 0) l)).
      { induction 1 as [|[j k] l Hq Hl IH]; intros HB; [constructor|]. cbn [map fst]. constructor; [|apply IH; intros; apply HB; now right].
        intros Hin. apply in_map_iff in Hin as ([j' k'] & Eq & Hin). cbn [fst] in Eq. destruct (HB j k (or_introl eq_refl)) as [Hj ->]. destruct (HB j' k' (or_intror Hin)) as [Hj' ->].
        rewrite NoDup_nth in Ns. apply Ns in Eq; [|lia|lia]. subst j'. now apply Hq. }
      apply H; [now apply NoDup_filter|]. intros j i' Hin. apply filter_In in Hin as [Hin Hi]. cbn [snd] in Hi. apply Nat.eqb_eq in Hi. split; [|exact Hi].
      destruct (N1 j i' Hin) as [Hj _]. lia.
    - intros j Hj. apply in_map_iff in Hj as ([j' i'] & <- & Hin). apply filter_In in Hin as [Hin Hi]. cbn [fst snd] in *. apply Nat.eqb_eq in Hi. subst i'.
      apply sorted_inside; [destruct (N1 j' i Hin) as [Hj _]; lia|]. now apply N1.
    - intros j Hj. assert (In j (gsidx g)) as X. { apply (Permutation_in _ (Permutation_sym Pm)), in_seq. destruct Hj. lia. }
      apply (In_nth _ _ 0) in X as (k & Hk & <-). apply in_map_iff. exists (k, i). split; [reflexivity|]. apply filter_In. split; [|apply Nat.eqb_refl].
      apply N2. apply sorted_inside; [lia|exact Hj].
  Qed.
End Between.

(** What holds for the pairs that the search returns holds for the layer. *)
Lemma pooling_gpu32_run fused active warp time eps D rows ids B p ceps crows cids CB cp radii feats C F srt pad red (P : feat -> Prop) :
  (forall x, active x <> 0) -> warp <> 0 -> 2 <= D <= 3 -> ids <> [] -> cloud GPU eps D rows ids B p -> valid_sizes D (map f32 radii) ->
  cloud GPU ceps D crows cids CB cp -> given feats p C F ->
  (forall g, is_device_grid fused D rows ids B (bcast D (map f32 radii)) g ->
     forall Post : list Z -> list (nat * nat) -> Prop,
     (forall ends nbs, (forall j i, In (j, i) nbs -> j < length ids /\ i < length cids) ->
       (exists out, returned cp srt pad C (table (length cids) C (fun i c => red (map (fun j => fval F j c) (found_for g nbs i)))) = Ok out /\ P out) -> Post ends nbs) ->
     find_neighbors_gpu32 fused active warp time g cp (bcast D radii) 0 Post) ->
  local_pooling_gpu32 fused active warp time red feats p cp (Some radii) srt pad P.
Proof.
  intros Ha Hw HD Hne Hc Hv Hcc Hg H. assert (Hi := cloud_is _ _ _ _ _ _ _ Hc). assert (Hio := cloud_is _ _ _ _ _ _ _ Hcc).
  unfold local_pooling_gpu32. eexists. split; [exact (given_flat _ _ _ _ Hg)|]. eexists. split; [reflexivity|]. rewrite (ic_dim _ _ _ _ _ _ _ Hi).
  apply (mk_grid_gpu32_ok fused (active KKeys) warp eps D rows ids B); auto; [unfold supported; lia|apply sizes_once; [lia|exact Hv]|].
  rewrite bcast_rounded by lia. intros g G. unfold neighborhood_gpu32. destruct (dg_cloud _ _ _ _ _ _ _ G) as (eps' & Cg).
  rewrite (ic_dim _ _ _ _ _ _ _ Cg), bcast_twice by lia. eexists. split; [reflexivity|].
  apply (H g G). intros ends nbs Hn (out & Eo & HP).
  destruct (rows_pooled g (length ids) (length cids) nbs C F cp srt pad red (sd_perm fused D rows ids B _ g G) Hn) as (orig & E1 & E2).
  exists orig. split; [exact E1|]. cbn [norig].
  rewrite (ic_pts _ _ _ _ _ _ _ Hi), (ic_len _ _ _ _ _ _ _ Hi), (ic_pts _ _ _ _ _ _ _ Hio), (ic_len _ _ _ _ _ _ _ Hio).
  exists out. split; [|exact HP]. rewrite <- Eo. exact E2.
Qed.

(** C81, partial. Local pooling with the CUDA operations in float32, for every
    device and schedule, either way of rounding and every order of the additions:
    the operations complete, and row i reduces the features of points of the
    element of center i, namely every point inside the ellipsoid of the radii
    reduced by a fraction of (m + 4) / 2^20, and no point outside the ellipsoid of
    the radii enlarged by a fraction of 4 / 2^20, where the coordinates of points,
    centers and corners are within [m] radii of the origin. Partial: dimensions 2
    and 3 and the restrictions of C41; the requested layout has to exist (C09). *)
Lemma C81_pooling_partial_proof :
  forall fused active warp time eps D rows ids B p ceps crows cids CB cp radii (m : Z) feats C F red return_sorted return_padded,
    (forall x, active x <> 0) -> warp <> 0 -> (exists q, 2 ^ 8 * 2 = q * (2 * warp)) ->
    2 <= D <= 3 -> ids <> [] -> cloud GPU eps D rows ids B p -> valid_sizes D (map f32 radii) ->
    cids <> [] -> cloud GPU ceps D crows cids CB cp -> Forall (fun b => b < B) cids ->
    let rs := all_dims D (map f32 radii) in
    (forall d, (d < D)%nat -> pow2 (-100) <= nth d rs 0 /\ nth d rs 0 <= pow2 100)%Q ->
    (0 <= m)%Z -> (m + 4 < 2 ^ 20)%Z ->
    (forall d, (d < D)%nat ->
       (forall i, (i < length ids)%nat -> Qabs (xc rows i d) <= inject_Z m * nth d rs 0)%Q /\
       (forall i, (i < length cids)%nat -> Qabs (xc crows i d) <= inject_Z m * nth d rs 0)%Q /\
       (forall b lo, In b ids -> lower_corner32 D rows ids b lo -> Qabs (nth d lo 0) <= inject_Z m * nth d rs 0)%Q) ->
    length cids <= 2 ^ 8 * 2 + active KScan * (2 * warp) ->
    given feats p C F -> float32_features F -> averaging32 red -> (Z.of_nat (length ids) <= 2 ^ 23)%Z ->
    (forall T, length T = length cids -> exists out, returned cp return_sorted return_padded C T = Ok out) ->
    let between := ellipsoids_between D (times_radii (1 - (inject_Z m + 4) / 1048576) rs) (times_radii (1 + 4 / 1048576) rs) rows ids crows cids in
    local_pooling_gpu32 fused active warp time red_max feats p cp (Some radii) return_sorted return_padded (fun out => exists found mx,
      returned cp return_sorted return_padded C (table (length cids) C mx) = Ok out /\
      forall i c, i < length cids -> c < C -> between i (found i) /\
        let values := map (fun j => fval F j c) (found i) in
        if values then mx i c = (- Q2R flt_max)%R
        else Forall (fun v => (- Q2R flt_max <= v)%R) values -> is_max values (mx i c)) /\
    local_pooling_gpu32 fused active warp time red feats p cp (Some radii) return_sorted return_padded (fun out => exists found av,
      returned cp return_sorted return_padded C (table (length cids) C av) = Ok out /\
      forall i c, i < length cids -> c < C -> between i (found i) /\
        let values := map (fun j => fval F j c) (found i) in
        if values then av i c = 0%R else average32 values (av i c)).
Proof.
  intros fused active warp time eps D rows ids B p ceps crows cids CB cp radii m feats C F red srt pad Ha Hw Hq HD Hne Hc Hv Hcne Hcc Hcids rs Hb Hm0 Hm Hfar Hlen Hg HF Hred HN Hok between.
  pose proof (valid_sizes_pos D _ Hv) as [Lr Pr]. change (all_dims D (map f32 radii)) with (bcast D (map f32 radii)) in *.
  assert (Hio := cloud_is _ _ _ _ _ _ _ Hcc).
  assert (K : forall rd (P : feat -> Prop),
    (forall g nbs, (forall i, between i (found_for g nbs i)) ->
       forall out, returned cp srt pad C (table (length cids) C (fun i c => rd (map (fun j => fval F j c) (found_for g nbs i)))) = Ok out -> P out) ->
    local_pooling_gpu32 fused active warp time rd feats p cp (Some radii) srt pad P).
  { intros rd P HP. apply (pooling_gpu32_run fused active warp time eps D rows ids B p ceps crows cids CB cp radii feats C F srt pad rd P); auto.
    intros g G Post HPost. fold rs in G.
    apply (search_sandwich fused D rows ids B rs g crows cids rs m) with (ceps := ceps) (CB := CB); auto.
    - lia.
    - intros d Hd. destruct (Hb d Hd). split; [assumption|]. split; [apply Qle_refl|assumption].
    - rewrite bcast_rounded by lia. reflexivity.
    - left. lia.
    - intros ends nbs _ Nd N1 N2. apply HPost.
      + intros j i H. destruct (N1 j i H) as (Hj & Hi & _). rewrite (sd_sbids_len fused D rows ids B rs g G) in Hj. auto.
      + destruct (Hok (table (length cids) C (fun i c => rd (map (fun j => fval F j c) (found_for g nbs i))))) as (out & Eo); [unfold table; now rewrite map_length, seq_length|].
        exists out. split; [exact Eo|]. apply (HP g nbs); [|exact Eo]. intros i. now apply (device_between fused D rows ids B rs g). }
  split; apply K; intros g nbs Hbt out Eo.
  - exists (found_for g nbs), (fun i c => red_max (map (fun j => fval F j c) (found_for g nbs i))). split; [exact Eo|]. intros i c Hi Hc'. split; [apply Hbt|]. cbv zeta.
    destruct (map (fun j => fval F j c) (found_for g nbs i)) as [|v l]; [reflexivity|]. intros HB. apply red_max_ok; [discriminate|exact HB].
  - exists (found_for g nbs), (fun i c => red (map (fun j => fval F j c) (found_for g nbs i))). split; [exact Eo|]. intros i c Hi Hc'. split; [apply Hbt|]. cbv zeta.
    assert (Hl : (Z.of_nat (length (found_for g nbs i)) <= 2 ^ 23)%Z).
    { destruct (Hbt i) as (Hd & H1 & _). assert (X : incl (found_for g nbs i) (seq 0 (length ids))) by (intros j Hj; apply in_seq; destruct (H1 j Hj); lia).
      apply NoDup_incl_length in X; [|exact Hd]. rewrite seq_length in X. lia. }
    exact (pooled_average red F c (found_for g nbs i) (found_for g nbs i) Hred HF (Permutation_refl _) Hl).
Qed.

(** C81, refuted without the reduction of the radius. Four points that float32
    represents, radius 165/128: with two roundings, on every device and for every
    schedule, max pooling returns less than the feature of a point whose distance
    is less than 4/5 of the radius. *)
Definition ex81_F : list (list R) := [[0%R]; [1%R]; [0%R]; [0%R]].
Lemma C81_missed_refuted_proof :
  exists rows ids p r feats F,
    cloud GPU 0 2 rows ids 1 p /\ float32_batch 2 rows ids /\ is_float32 r /\ valid_sizes 2 [r] /\ given feats p 1 F /\ float32_features F /\
    forall active warp time, (forall x, active x <> 0) -> warp <> 0 -> (exists q, 2 ^ 8 * 2 = q * (2 * warp)) ->
      local_pooling_gpu32 false active warp time red_max feats p p (Some [r]) false false (fun out => exists mx,
        returned p false false 1 (table (length ids) 1 mx) = Ok out /\
        exists j i, inside_ellipsoid 2 (times_radii (4 / 5) (all_dims 2 [r])) rows ids rows ids j i /\ (mx i 0%nat < fval F j 0)%R).
Proof.
  assert (Hg : given (Feat 1 (inr ex81_F)) ex72_cloud 1 ex81_F) by (split; [reflexivity|split; reflexivity]).
  exists ex72_rows, ex72_ids, ex72_cloud, (165#128)%Q, (Feat 1 (inr ex81_F)), ex81_F.
  split; [exact ex72_is|]. split; [exact ex72_batch|]. split; [reflexivity|]. split; [exact ex72_sizes|]. split; [exact Hg|].
  split. { repeat constructor; first [apply (whole_float 0)|apply (whole_float 1)]; vm_compute; reflexivity. }
  intros active warp time Ha Hw Hq.
  assert (Sup : supported 2) by (unfold supported; lia).
  pose proof (cloud_is _ _ _ _ _ _ _ ex72_is) as C.
  apply (pooling_gpu32_run false active warp time 0 2 ex72_rows ex72_ids 1 ex72_cloud 0 ex72_rows ex72_ids 1 ex72_cloud [165#128] (Feat 1 (inr ex81_F)) 1 ex81_F); auto.
  { discriminate. } { exact ex72_is. } { exact ex72_sizes. } { exact ex72_is. }
  intros g G Post HPost. destruct (ex72_grid false g G) as (En & Ek).
  apply (find_neighbors_gpu32_ok false active warp time 2 ex72_rows ex72_ids 1 (bcast 2 (map f32 [165#128])) g 0 ex72_rows ex72_ids 1); auto.
  - discriminate.
  - discriminate.
  - repeat constructor.
  - cbn [length ex72_ids]. change (2 ^ 8 * 2) with 512. lia.
  - intros ends nbs _ _ D3 _.
    assert (Es : gsidx g = [3; 2; 1; 0]) by (rewrite (dg_sidx _ _ _ _ _ _ _ G), Ek; vm_compute; reflexivity).
    apply HPost; [intros j i H; destruct (D3 j i H); tauto|]. eexists. split; [reflexivity|]. eexists. split; [reflexivity|].
    exists 1, 2. split; [repeat split; vm_compute; reflexivity || lia|]. change (fval ex81_F 1 0) with 1%R. cbv beta.
    apply Rle_lt_trans with 0%R; [|lra]. apply red_max_below, Forall_map, Forall_forall. intros j Hj.
    assert (Hj1 : j <> 1).
    { intros ->. unfold found_for in Hj. apply in_map_iff in Hj as ([k i] & Ek' & Hin). apply filter_In in Hin as [Hin Hi]. cbn [fst snd] in *. apply Nat.eqb_eq in Hi. subst i.
      destruct (D3 k 2 Hin) as (_ & Hk & _ & _ & A & _). rewrite Es in Ek'. cbn [length ex72_ids] in Hk.
      assert (k = 2) by (destruct k as [|[|[|[|k]]]]; cbn in Ek'; try discriminate; try reflexivity; lia). subst k.
      unfold sd_pcells, sd_cells, sd_scells in A.
      rewrite !QFacts.nth_map_seq in A by lia. rewrite Es in A. unfold dcell, sd_scell in A. rewrite En in A. vm_compute in A. congruence. }
    unfold fval, ex81_F. destruct j as [|j]; [cbn; lra|]. destruct j as [|j]; [lia|]. do 2 (destruct j as [|j]; [cbn; lra|]). destruct j; cbn; lra.
Qed.

(** * Concrete cases *)
Definition ex81_feats : list (list R) := [[1%R; 2%R]; [3%R; 5%R]; [8%R; (-1)%R]].
Example C81_pooling_partial_ex_proof :
  cloud GPU 0 2 ex73_rows ex73_ids 1 ex73_cloud /\ valid_sizes 2 (map f32 [1#1]) /\
  let rs := all_dims 2 (map f32 [1#1]) in
  (forall d, (d < 2)%nat -> pow2 (-100) <= nth d rs 0 /\ nth d rs 0 <= pow2 100)%Q /\
  (forall d, (d < 2)%nat ->
     (forall i, (i < length ex73_ids)%nat -> Qabs (xc ex73_rows i d) <= inject_Z 3 * nth d rs 0)%Q /\
     (forall b lo, In b ex73_ids -> lower_corner32 2 ex73_rows ex73_ids b lo -> Qabs (nth d lo 0) <= inject_Z 3 * nth d rs 0)%Q) /\
  given (Feat 2 (inr ex81_feats)) ex73_cloud 2 ex81_feats /\ float32_features ex81_feats /\ averaging32 tail_red /\ 2 ^ 8 * 2 = 8 * (2 * 32) /\
  (forall T, length T = length ex73_ids -> exists out, returned ex73_cloud false false 2 T = Ok out) /\
  inside_ellipsoid 2 (times_radii (1 - (inject_Z 3 + 4) / 1048576) rs) ex73_rows ex73_ids ex73_rows ex73_ids 0 1 /\
  ~ inside_ellipsoid 2 (times_radii (1 + 4 / 1048576) rs) ex73_rows ex73_ids ex73_rows ex73_ids 0 2.
Proof.
  destruct C73_search_partial_ex_proof as (H1 & H2 & H3 & H4 & H5 & H6). cbv zeta in *.
  split; [exact H1|]. split; [exact H2|]. split; [intros d Hd; destruct (H3 d Hd) as (X1 & _ & X2); now split|]. split; [exact H4|].
  split; [split; [reflexivity|split; reflexivity]|]. split.
  { repeat constructor; first [apply (whole_float 1)|apply (whole_float 2)|apply (whole_float 3)|apply (whole_float 5)|apply (whole_float 8)|apply (whole_float (-1))]; vm_compute; reflexivity. }
  split; [exact tail_red_ok|]. split; [reflexivity|]. split; [intros T _; eexists; reflexivity|]. split; [exact H5|exact H6].
Qed.
Example C81_missed_refuted_ex_proof :
  inside_ellipsoid 2 (times_radii (4 / 5) (all_dims 2 [165#128])) ex72_rows ex72_ids ex72_rows ex72_ids 1 2 /\ fval ex81_F 1 0 = 1%R.
Proof. split; [repeat split; vm_compute; reflexivity || lia|reflexivity]. Qed.
