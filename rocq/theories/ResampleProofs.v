(** Proofs about sampling a sample again (C82). The statements are copied into
    PropertiesResample.v. *)
From Coq Require Import String List Arith ZArith NArith QArith Qround Lia Lqa Bool Permutation.
From Verif Require Import Tensor TensorFacts Spec PointCloud SpecCloud History PointCloudFacts QFacts CloudProofs
  Grid SpecGrid GridFacts GridProofs Neighbors SpecNeighbors NeighborFacts NeighborProofs Neighborhood NeighborhoodFacts Sampling SpecSampling SamplingFacts SamplingProofs
  Hierarchy SpecHierarchy HierarchyFacts
  Cuda CudaFacts AddFacts GpuGrid GpuGridFacts GpuGridProofs GpuScan SpecGpu GpuNeighbors GpuCountFacts SlotFacts GpuStoreFacts
  GpuNeighborFacts GpuOpFacts GpuRangeFacts GpuGeometry GpuSearchFacts GpuNeighborProofs GpuSampling UniqueFacts PoissonFacts SampleFacts SpecGpuSampling GpuSampleFacts GpuSampleProofs.
Import ListNotations.
Local Open Scope nat_scope.

Lemma nth_sub {A} (f : nat -> A) sel i z : i < length sel -> nth i (map f sel) z = f (nth i sel 0).
Proof. intros H. rewrite (nth_indep _ z (f 0)) by (now rewrite map_length). apply map_nth. Qed.

(** A sample that covers points of which none covers another has all of them. *)
Lemma all_selected (close : nat -> nat -> Prop) N sel : NoDup sel -> Forall (fun i => i < N) sel ->
  (forall j, j < N -> exists i, In i sel /\ close j i) -> (forall i j, i < N -> j < N -> i <> j -> ~ close i j) ->
  Permutation sel (seq 0 N).
Proof.
  intros Hn Hl Hc Hs. rewrite Forall_forall in Hl. apply NoDup_Permutation; [exact Hn|apply seq_NoDup|]. intros x. rewrite in_seq. split.
  - intros H. specialize (Hl x H). lia.
  - intros [_ H]. cbn in H. destruct (Hc x H) as (i & Hi & Hx). destruct (Nat.eq_dec x i) as [->|Ne]; [exact Hi|]. exfalso. apply (Hs x i); auto.
Qed.

Lemma few_cells_sub eps D cs B rows ids sel : Forall (fun i => i < length ids) sel -> few_cells eps D cs B (rows, ids) ->
  few_cells eps D cs B (map (fun i => nth i rows []) sel, map (fun i => nth i ids 0) sel).
Proof.
  intros Hl (nc & H1 & H2 & H3). exists nc. split; [exact H1|]. split; [exact H2|]. intros d Hd. destruct (H3 d Hd) as [H4 H5]. split; [exact H4|].
  cbn [fst snd] in *. intros i j Hi Hj. rewrite map_length in Hi, Hj. unfold xc. rewrite !nth_sub by assumption. intros E.
  rewrite Forall_forall in Hl. apply H5; auto; apply Hl, nth_In; assumption.
Qed.

Lemma usable_new eps D B rows ids p cs g :
  (0 < eps)%Q -> (eps <= flt_max)%Q -> 2 <= D -> cloud GPU eps D rows ids B p -> valid_sizes D cs ->
  (Z.of_nat (length ids) < 2 ^ 31 - 1)%Z -> few_cells eps D (all_dims D cs) B (rows, ids) ->
  mk_grid GPU eps p cs = Ok g -> usable eps D rows ids B cs g.
Proof.
  intros He Hfl HD Hc Hv HN Hfc Eg. assert (Hg : grid_for GPU eps D rows ids B cs g) by (eapply grid_new; eauto).
  constructor; auto; [apply Qlt_le_weak, He|now left|].
  pose proof (grid_for_is _ _ _ _ _ _ _ _ Hv Hg) as G. eapply few_cells_grid; eauto. apply Qlt_le_weak, He.
Qed.

Lemma nbh_exists eps D B rows ids cs g k :
  usable eps D rows ids B cs g -> radii_match D cs cs -> ids <> [] -> exists n, snd (mk_nbh (find_neighbors_tf GPU) g cs None k) = Ok n.
Proof.
  intros Hu Hr Hne. pose proof (grid_for_is _ _ _ _ _ _ _ _ (us_sizes _ _ _ _ _ _ _ Hu) (us_grid _ _ _ _ _ _ _ Hu)) as G.
  destruct (sorted_cloud_ok _ _ _ _ _ _ _ _ G) as (sp & Ep & _ & Hp). specialize (Hp GPU eps).
  assert (Hne' : gsbids g <> []).
  { intros E. apply Hne, length_zero_iff_nil. rewrite <- (sbids_length _ _ _ _ _ _ _ _ G), E. reflexivity. }
  destruct (mk_nbh_tf eps D rows ids B cs g eps (gspts g) (gsbids g) B sp cs k None Hu Hp Hne'
    (ic_ids _ _ _ _ _ _ _ (cloud_is _ _ _ _ _ _ _ Hp)) Hr (or_intror (conj eq_refl Ep))) as (n & E & _). eauto.
Qed.

(** C82, Poisson disk sampling. For every cloud that can be sampled and every
    sequence of draws: sampling the result again with the same radius, with any
    draws, returns all its points, each once with its element. Partial: a sample
    of one point cannot be sampled (C82_single_refuted). *)
Lemma C82_poisson_partial_proof :
  forall eps D rows ids B p cs k g n mode dev fuel draws,
    (0 < eps)%Q -> (eps <= flt_max)%Q -> 2 <= D -> cloud GPU eps D rows ids B p ->
    valid_sizes D cs -> (nth 0 (all_dims D cs) 0 <= nth 1 (all_dims D cs) 0)%Q ->
    (Z.of_nat (length ids) < 2 ^ 31 - 1)%Z -> few_cells eps D (all_dims D cs) B (rows, ids) ->
    mk_grid GPU eps p cs = Ok g -> snd (mk_nbh (find_neighbors_tf GPU) g cs None k) = Ok n ->
    2 <= length ids -> length ids <= fuel -> means mode poisson_names ->
    exists q sel, sample dev fuel draws n mode = Some (Ok (q, Some sel)) /\
      poisson_sample D (nth 0 (all_dims D cs) 0%Q) rows ids sel /\
      (2 <= length sel -> forall k' dev' fuel' draws' mode', length sel <= fuel' -> means mode' poisson_names ->
         exists g' n' q' sel', mk_grid GPU eps q cs = Ok g' /\ snd (mk_nbh (find_neighbors_tf GPU) g' cs None k') = Ok n' /\
           sample dev' fuel' draws' n' mode' = Some (Ok (q', Some sel')) /\ Permutation sel' (seq 0 (length sel)) /\
           Permutation (combine (pts q') (bids q')) (combine (pts q) (bids q))).
Proof.
  intros eps D rows ids B p cs k g n mode dev fuel draws He Hfl HD Hc Hv H01 HN Hfc Eg En H2 Hf Hm.
  assert (Hu := usable_new eps D B rows ids p cs g He Hfl HD Hc Hv HN Hfc Eg).
  assert (Hr : radii_match D cs cs) by (split; [reflexivity|split; [reflexivity|exact H01]]).
  destruct (C21_poisson_partial_proof eps D rows ids B cs g cs k n mode dev fuel draws Hu Hr En H2 Hf Hm) as (q & sel & Es & Hp & Hq).
  exists q, sel. split; [exact Es|]. split; [exact Hp|]. intros L2 k' dev' fuel' draws' mode' Lf Hm'.
  destruct Hp as (P1 & P2 & P3 & P4). set (rows' := map (fun i => nth i rows []) sel) in *. set (ids' := map (fun i => nth i ids 0) sel) in *.
  assert (Ll : length ids' = length sel) by apply map_length.
  assert (Hle : length sel <= length ids).
  { rewrite <- (seq_length (length ids) 0). apply NoDup_incl_length; [exact P1|]. intros x Hx. rewrite Forall_forall in P2. apply in_seq. specialize (P2 x Hx). lia. }
  destruct (mk_grid_ok GPU eps D rows' ids' B q cs (cloud_is _ _ _ _ _ _ _ Hq) Hv) as (g' & Eg' & _ & _).
  assert (Hu' : usable eps D rows' ids' B cs g').
  { apply (usable_new eps D B rows' ids' q); auto; [lia|]. now apply few_cells_sub. }
  destruct (nbh_exists eps D B rows' ids' cs g' k' Hu' Hr) as (n' & En'); [intros X; rewrite X in Ll; cbn in Ll; lia|].
  destruct (C21_poisson_partial_proof eps D rows' ids' B cs g' cs k' n' mode' dev' fuel' draws' Hu' Hr En' ltac:(lia) ltac:(lia) Hm') as (q' & sel' & Es' & (S1 & S2 & S3 & S4) & Hq').
  exists g', n', q', sel'. split; [exact Eg'|]. split; [exact En'|]. split; [exact Es'|].
  assert (HP : Permutation sel' (seq 0 (length sel))).
  { rewrite Ll in S2, S4. apply (all_selected (fun j i => nth j ids' 0 = nth i ids' 0 /\ (dist2 D (nth j rows' []) (nth i rows' []) < nth 0 (all_dims D cs) 0 * nth 0 (all_dims D cs) 0)%Q)); auto.
    intros i j Hi Hj Hij [E1 E2]. unfold ids' in E1. unfold rows' in E2. rewrite !nth_sub in E1 by assumption. rewrite (nth_sub (fun i => nth i rows []) sel i), (nth_sub (fun i => nth i rows []) sel j) in E2 by assumption.
    assert (X : (nth 0 (all_dims D cs) 0 * nth 0 (all_dims D cs) 0 <= dist2 D (nth (nth i sel 0%nat) rows []) (nth (nth j sel 0%nat) rows []))%Q).
    { apply P3; auto using nth_In. intros Ei. apply Hij. apply (proj1 (NoDup_nth sel 0) P1); auto. }
    apply (Qlt_irrefl (nth 0 (all_dims D cs) 0 * nth 0 (all_dims D cs) 0)%Q). eapply Qle_lt_trans; eauto. }
  split; [exact HP|]. pose proof (cloud_is _ _ _ _ _ _ _ Hq) as C. pose proof (cloud_is _ _ _ _ _ _ _ Hq') as C'.
  rewrite (ic_pts _ _ _ _ _ _ _ C'), (ic_bids _ _ _ _ _ _ _ C'), (ic_pts _ _ _ _ _ _ _ C), (ic_bids _ _ _ _ _ _ _ C).
  assert (X : forall (f : nat -> point) (h : nat -> nat) l, combine (map f l) (map h l) = map (fun i => (f i, h i)) l).
  { intros f h l. induction l as [|x l IH]; [reflexivity|]. cbn. now rewrite IH. }
  rewrite X, (Permutation_map _ HP). unfold rows' at 2, ids' at 2. rewrite X. rewrite <- (map_nth_seq sel 0) at 2. rewrite map_map.
  apply Permutation_refl'. apply map_ext_in. intros i Hi. apply in_seq in Hi. unfold rows', ids'. rewrite !nth_sub by lia. reflexivity.
Qed.

(** C82, Poisson disk sampling with the CUDA operations, for every device and
    schedule of both samplings and radii up to the cell sizes: the second
    sampling returns all points of the first. Partial: with the conditions of
    C41. *)
Lemma C82_cuda_partial_proof :
  forall active sactive active' sactive' warp time time' eps D rows ids B cs p radii mode mode',
    (forall k, active k <> 0) -> (forall k, sactive k <> 0) -> (forall k, active' k <> 0) -> (forall k, sactive' k <> 0) ->
    warp <> 0 -> (exists q, 2 ^ 8 * 2 = q * (2 * warp)) ->
    2 <= D <= 6 -> ids <> [] -> cloud GPU eps D rows ids B p -> valid_sizes D cs -> valid_sizes D radii ->
    (forall d, (d < D)%nat -> nth d (all_dims D radii) 1 <= nth d (all_dims D cs) 1)%Q ->
    length ids <= 2 ^ 8 * 2 + active KScan * (2 * warp) -> length ids <= 2 ^ 8 * 2 + active' KScan * (2 * warp) ->
    means mode poisson_names -> means mode' poisson_names ->
    mk_grid_gpu (active KKeys) warp eps p cs (fun g =>
      (D <= 3 \/ (3 <= nth (D - 1) (gnc g) 0)%Z) ->
      mk_nbh_gpu active warp time g radii 0 (fun n =>
        sample_gpu sactive warp n mode (fun q o => exists sel, o = Some sel /\
          ellipsoid_sample D (all_dims D radii) rows ids sel /\
          mk_grid_gpu (active' KKeys) warp eps q cs (fun g' =>
            (D <= 3 \/ (3 <= nth (D - 1) (gnc g') 0)%Z) ->
            mk_nbh_gpu active' warp time' g' radii 0 (fun n' =>
              sample_gpu sactive' warp n' mode' (fun q' o' => exists sel', o' = Some sel' /\
                Permutation sel' (seq 0 (length sel)) /\
                Permutation (combine (pts q') (bids q')) (combine (pts q) (bids q)))))))).
Proof.
  intros active sactive active' sactive' warp time time' eps D rows ids B cs p radii mode mode' Ha Hs Ha' Hs' Hw Hq HD Hne Hc Hv Hr Hle Hl Hl' Hm Hm'.
  apply pipeline_gpu with (D := D) (rows := rows) (ids := ids) (B := B); auto. intros _ sel Hsel. exists sel. split; [reflexivity|]. split; [exact Hsel|].
  pose proof (cloud_is _ _ _ _ _ _ _ Hc) as C. destruct Hsel as (P1 & P2 & P3 & P4). assert (P2' := P2). rewrite Forall_forall in P2.
  set (rows' := map (fun i => nth i rows []) sel) in *. set (ids' := map (fun i => nth i ids 0) sel) in *.
  assert (Ll : length ids' = length sel) by apply map_length.
  assert (Hlen : length sel <= length ids).
  { rewrite <- (seq_length (length ids) 0). apply NoDup_incl_length; [exact P1|]. intros x Hx. apply in_seq. specialize (P2 x Hx). lia. }
  assert (Hne' : ids' <> []).
  { intros X. apply Hne. destruct ids as [|b ids]; [reflexivity|]. destruct (P4 0 ltac:(cbn; lia)) as (i & Hi & _). destruct sel; [destruct Hi|discriminate X]. }
  assert (Hq' : cloud GPU eps D rows' ids' B (seg D rows' ids' B)).
  { apply seg_cloud.
    - unfold rows', ids'. now rewrite !map_length.
    - apply Forall_map, Forall_forall. intros i Hi. pose proof (ic_ids _ _ _ _ _ _ _ C) as F. rewrite Forall_forall in F. apply F, nth_In. auto.
    - apply Forall_map, Forall_forall. intros i Hi. pose proof (ic_rows _ _ _ _ _ _ _ C) as F. rewrite Forall_forall in F. apply F, nth_In. rewrite (ic_len _ _ _ _ _ _ _ C). auto. }
  apply pipeline_gpu with (D := D) (rows := rows') (ids := ids') (B := B); auto; [lia|]. intros _ sel' (S1 & S2 & S3 & S4). exists sel'. split; [reflexivity|].
  assert (HP : Permutation sel' (seq 0 (length sel))).
  { rewrite Ll in S2, S4. apply (all_selected (fun j i => inside_ellipsoid D (bcast D radii) rows' ids' rows' ids' j i)); auto.
    intros i j Hi Hj Hij (E1 & E2 & E3 & E4). apply (P3 (nth i sel 0) (nth j sel 0)); auto using nth_In.
    - intros Ei. apply Hij. apply (proj1 (NoDup_nth sel 0) P1); auto.
    - unfold ids' in E3. unfold rows' in E4. rewrite !nth_sub in E3 by assumption. rewrite (nth_sub (fun i => nth i rows []) sel i), (nth_sub (fun i => nth i rows []) sel j) in E4 by assumption.
      split; [apply P2, nth_In, Hi|]. split; [apply P2, nth_In, Hj|]. split; [exact E3|exact E4]. }
  split; [exact HP|]. unfold seg. cbn [pts bids].
  assert (X : forall (f : nat -> point) (h : nat -> nat) l, combine (map f l) (map h l) = map (fun i => (f i, h i)) l).
  { intros f h l. induction l as [|x l IH]; [reflexivity|]. cbn. now rewrite IH. }
  rewrite X, (Permutation_map _ HP). unfold rows' at 2, ids' at 2. rewrite X. rewrite <- (map_nth_seq sel 0) at 2. rewrite map_map.
  apply Permutation_refl'. apply map_ext_in. intros i Hi. apply in_seq in Hi. unfold rows', ids'. rewrite !nth_sub by lia. reflexivity.
Qed.

(** * What is refuted *)

(** C82, single points. If the first sampling leaves one point, the second raises
    InvalidArgumentError. *)
Lemma C82_single_refuted_proof :
  exists rows ids n q sel n', exS_nbh (1#1000) rows ids 1 [1#1] = Ok n /\
    sample GPU 2 (fun k => k) n "poisson" = Some (Ok (q, Some sel)) /\ length sel = 1 /\
    exS_nbh (1#1000) (pts q) (bids q) 1 [1#1] = Ok n' /\
    forall dev fuel draws, sample dev fuel draws n' "poisson" = Some (Err InvalidArgument).
Proof.
  exists [[0#1;0#1];[1#4;1#4]], [0;0]. do 4 eexists. split; [vm_compute; reflexivity|]. split; [vm_compute; reflexivity|]. split; [reflexivity|].
  split; [vm_compute; reflexivity|]. intros dev fuel draws. reflexivity.
Qed.

(** C82, cell averages. Averaging the averages again with the same cells is
    another cloud: the box, and with it the cells, move with the points. Here two
    averages are merged, although they come from different cells. *)
Lemma C82_average_refuted_proof :
  exists rows ids n q n' q', exS_nbh (1#1000) rows ids 1 [1#1] = Ok n /\
    sample GPU 0 (fun k => k) n "average" = Some (Ok (q, None)) /\ length (bids q) = 2 /\
    exS_nbh (1#1000) (pts q) (bids q) 1 [1#1] = Ok n' /\
    sample GPU 0 (fun k => k) n' "average" = Some (Ok (q', None)) /\ length (bids q') = 1.
Proof.
  exists [[0#1;0#1];[3#4;0#1];[1#1;0#1]], [0;0;0]. do 4 eexists. split; [vm_compute; reflexivity|]. split; [vm_compute; reflexivity|]. split; [reflexivity|].
  split; [vm_compute; reflexivity|]. split; [vm_compute; reflexivity|]. reflexivity.
Qed.

(** * Concrete cases *)
(** Six points in two elements: four are selected, and selected again in another
    order. *)
Example C82_poisson_partial_ex_proof :
  exists g n q g' n' q', cloud GPU (1#1000) 2 exN_rows exN_ids 2 (seg 2 exN_rows exN_ids 2) /\ valid_sizes 2 [1#1] /\
    few_cells (1#1000) 2 (all_dims 2 [1#1]) 2 (exN_rows, exN_ids) /\
    mk_grid GPU (1#1000) (seg 2 exN_rows exN_ids 2) [1#1] = Ok g /\ snd (mk_nbh (find_neighbors_tf GPU) g [1#1] None 0) = Ok n /\
    sample GPU 6 (fun k => k) n "poisson" = Some (Ok (q, Some [4;2;1;3])) /\
    mk_grid GPU (1#1000) q [1#1] = Ok g' /\ snd (mk_nbh (find_neighbors_tf GPU) g' [1#1] None 0) = Ok n' /\
    sample GPU 6 (fun k => 5 - k) n' "poisson" = Some (Ok (q', Some [3;1;2;0])).
Proof.
  do 6 eexists. split; [apply seg_cloud; repeat constructor|]. split; [split; [reflexivity|repeat constructor]|]. split.
  { exists [4; 4]%Z. split; [reflexivity|]. split; [vm_compute; discriminate|]. cbn [fst snd].
    intros [|[|d]] Hd; [| |lia]; (split; [cbn; lia|]); intros i j Hi Hj _; cbn in Hi, Hj;
      destruct i as [|[|[|[|[|[|i]]]]]]; try lia; destruct j as [|[|[|[|[|[|j]]]]]]; try lia; vm_compute; discriminate. }
  split; [vm_compute; reflexivity|]. split; [vm_compute; reflexivity|]. split; [vm_compute; reflexivity|].
  split; [vm_compute; reflexivity|]. split; [vm_compute; reflexivity|]. vm_compute. reflexivity.
Qed.
(** The same cloud on a device with one active block and warps of 32 threads. *)
Example C82_cuda_partial_ex_proof :
  cloud GPU (1#1000) 2 exN_rows exN_ids 2 (seg 2 exN_rows exN_ids 2) /\ valid_sizes 2 [1#1] /\ (exists q, 2 ^ 8 * 2 = q * (2 * 32)) /\
  (forall d, (d < 2)%nat -> nth d (all_dims 2 [1#1]) 1 <= nth d (all_dims 2 [1#1]) 1)%Q /\
  length exN_ids <= 2 ^ 8 * 2 + 1 * (2 * 32) /\ ellipsoid_sample 2 (all_dims 2 [1#1]) exN_rows exN_ids [4; 2; 1; 3].
Proof.
  split; [apply seg_cloud; repeat constructor|]. split; [split; [reflexivity|repeat constructor]|]. split; [exists 8; reflexivity|].
  split; [intros; apply Qle_refl|]. split; [cbn; lia|]. split; [repeat constructor; cbn; intuition lia|]. split; [repeat constructor; cbn; lia|]. split.
  - intros i j Hi Hj Hij (_ & _ & H3 & H4). cbn in Hi, Hj.
    destruct Hi as [<-|[<-|[<-|[<-|[]]]]]; destruct Hj as [<-|[<-|[<-|[<-|[]]]]]; try congruence; try discriminate H3; revert H4; vm_compute; discriminate.
  - intros j Hj. cbn in Hj.
    exists (match j with 0 => 1 | 5 => 4 | _ => j end). destruct j as [|[|[|[|[|[|j]]]]]]; try lia; (split; [cbn; tauto|]); (split; [cbn; lia|]); (split; [cbn; lia|]); split; vm_compute; reflexivity.
Qed.
(** The clouds of the two refutations: two points closer than the radius, and
    three points in two cells. *)
Example C82_single_refuted_ex_proof : (dist2 2 [0#1;0#1] [1#4;1#4] < 1 * 1)%Q.
Proof. reflexivity. Qed.
Example C82_average_refuted_ex_proof :
  exists n q, exS_nbh (1#1000) [[0#1;0#1];[3#4;0#1];[1#1;0#1]] [0;0;0] 1 [1#1] = Ok n /\ sample GPU 0 (fun k => k) n "average" = Some (Ok (q, None)) /\ map (map Qred) (pts q) = [[1#1;0#1];[3#8;0#1]].
Proof. do 2 eexists. split; [vm_compute; reflexivity|]. split; [vm_compute; reflexivity|]. vm_compute. reflexivity. Qed.
