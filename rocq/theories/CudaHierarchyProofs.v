(** Proofs of the properties of hierarchies built with the CUDA operations
    (C64). The statements are copied into PropertiesCudaHierarchy.v. *)
From Coq Require Import String List Arith ZArith NArith QArith Qround Lia Lqa Bool Permutation.
From Verif Require Import Tensor TensorFacts Spec PointCloud SpecCloud History PointCloudFacts QFacts Grid SpecGrid GridFacts Neighbors SpecNeighbors NeighborFacts NeighborProofs Neighborhood Sampling SpecSampling SamplingFacts SamplingProofs Hierarchy SpecHierarchy HierarchyFacts HierarchyProofs
  Cuda CudaFacts GpuGrid GpuGridFacts GpuGridProofs SpecGpu GpuNeighbors GpuSampling SpecGpuSampling GpuSampleFacts GpuSampleProofs
  SpecCudaLayers SpecCudaNetwork CudaLayers CudaNetwork CudaHierarchyFacts LevelFacts SpecLayers SpecMatch MatchFacts MatchLevel.
Import ListNotations.
Local Open Scope nat_scope.

Section Construct.
  Variables (active : kernel -> nat) (sactive : skernel -> nat) (pactive bactive warp : nat) (time : N).
  Variables (eps : Q) (D B : nat) (mode : string) (shape : option (list nat)).
  Hypothesis Hdev : device_samples active sactive pactive bactive warp.
  Hypothesis Heps : (0 < eps)%Q.
  Hypothesis HD : 2 <= D <= 3.
  Hypothesis Hmode : means mode poisson_names \/ means mode average_names.

  (** One level, for every continuation. *)
  Lemma level_gpu rows ids p s (P : grid -> nbh -> pc -> option (list nat) -> Prop) :
    cloud GPU eps D rows ids B p -> ids <> [] -> length ids <= scan_limit active warp ->
    s <> [] -> length s <= D -> Forall (fun c => (0 < c)%Q) s ->
    (forall g n rows' ids' o, gcloud g = fst (get_aabb GPU eps p) ->
       next_level_cuda mode eps D (filled_with_first D s) (rows, ids) (rows', ids') -> P g n (seg D rows' ids' B) o) ->
    mk_grid_gpu (active KKeys) warp eps p (filled_with_first D s) (fun g =>
    mk_nbh_gpu active warp time g (filled_with_first D s) 0 (fun n => sample_gpu sactive warp n mode (P g n))).
  Proof using Hdev Heps HD Hmode.
    intros Hc Hne Hlen Sn Sl Sp HP. destruct Hdev as [[Da Dp Db Dw Dq] Ds]. set (cs := filled_with_first D s) in *.
    assert (Eall : bcast D cs = cs) by (apply (all_dims_id D cs); [now apply filled_length|lia]).
    assert (Hv : valid_sizes D cs).
    { unfold valid_sizes. change (all_dims D cs) with (bcast D cs). rewrite Eall. split; [now apply filled_length|].
      apply Forall_app. split; [exact Sp|]. apply Forall_forall. intros c Hi. apply repeat_spec in Hi. subst c. destruct s; [congruence|]. now inversion Sp. }
    assert (Hle : forall d, (d < D)%nat -> (nth d (bcast D cs) 1 <= nth d (bcast D cs) 1)%Q) by (intros; apply Qle_refl).
    apply mk_grid_gpu_from with (D := D) (rows := rows) (ids := ids) (B := B); auto; [lia|now apply cloud_is|].
    intros g G Eg. apply mk_nbh_gpu_ok with (eps := eps) (D := D) (rows := rows) (ids := ids) (B := B) (cs := cs); auto; [lia|left; lia|].
    intros n En Eb Hd Hn. destruct Hmode as [Hm|Hm].
    - apply poisson_gpu with (eps := eps) (D := D) (rows := rows) (ids := ids) (B := B) (cs := cs) (g := g) (radii := cs); auto; [lia|].
      intros sel Hsel. rewrite Eb. apply HP; [exact Eg|]. left. split; [exact Hm|]. exists sel. rewrite Eall in Hsel. auto.
    - apply average_gpu with (eps := eps) (D := D) (rows := rows) (ids := ids) (B := B) (cs := cs) (g := g); auto; [lia|apply Hd|].
      intros A PA. rewrite Eb. apply HP; [exact Eg|]. right. split; [exact Hm|]. cbn [fst snd].
      pose proof (average_agrees eps D rows ids B (bcast D cs) g G (Qlt_le_weak _ _ Heps) A PA (or_introl Heps)) as X. rewrite Eall in X. exact X.
  Qed.

  Definition built (sizes : list (list Q)) (rows : list point) (ids : list nat) (p : pc)
    (ps : list pc) (css : list (list Q)) (ns : list nbh) : Prop :=
    css = map (filled_with_first D) sizes /\
    exists data, chain (next_level_cuda mode eps D) (map (filled_with_first D) sizes) ((rows, ids) :: data) /\
      Forall2 (fun b q => cloud GPU eps D (fst b) (snd b) B q /\ bshape q = shape) ((rows, ids) :: data) ps /\
      length ns = length sizes /\
      (all_nonempty B ids -> good p -> Forall good ps).

  Lemma levels_built sizes : forall rows ids p (P : list pc -> list (list Q) -> list nbh -> Prop),
    cloud GPU eps D rows ids B p -> bshape p = shape -> (forall s, shape = Some s -> nprod s = B) ->
    ids <> [] -> length ids <= scan_limit active warp ->
    Forall (fun l => l <> [] /\ length l <= D /\ Forall (fun c => (0 < c)%Q) l) sizes ->
    (forall ps css ns, built sizes rows ids p ps css ns -> P ps css ns) ->
    levels_gpu active sactive warp time eps mode D shape p (map CVector sizes) P.
  Proof using Hdev Heps HD Hmode.
    induction sizes as [|s sizes IH]; intros rows ids p P Hc Hsh Hpr Hne Hlen Hgs HP.
    - cbn [map levels_gpu]. apply HP. split; [reflexivity|]. exists []. split; [constructor|].
      split; [repeat constructor; auto|]. split; [reflexivity|]. intros _ G; now constructor.
    - apply Forall_cons_iff in Hgs as [(S1 & S2 & S3) Hgs]. cbn [map levels_gpu].
      exists (filled_with_first D s). split; [now apply tile_ok|].
      apply (level_gpu rows ids p s (fun g n q _ => CudaLayers.step (snd (set_batch_shape q shape)) (fun _ =>
        levels_gpu active sactive warp time eps mode D shape (fst (set_batch_shape q shape)) (map CVector sizes) (fun ps css ns =>
          P (gcloud g :: ps) (filled_with_first D s :: css) (n :: ns))))); auto.
      intros g n rows' ids' _ Eg Hnx.
      pose proof (cloud_is _ _ _ _ _ _ _ Hc) as Ci.
      pose proof (ic_len _ _ _ _ _ _ _ Ci) as HL. pose proof (ic_ids _ _ _ _ _ _ _ Ci) as HB. pose proof (ic_rows _ _ _ _ _ _ _ Ci) as HR.
      destruct (cuda_reps mode eps D _ (rows, ids) (rows', ids') HL Hnx) as (sel & Sn & Sl & Ei & HL' & Hin). cbn [fst snd] in *.
      pose proof (cuda_rows mode eps D _ (rows, ids) (rows', ids') HL HR Hnx) as HR'. cbn [fst snd] in *.
      assert (HB' : Forall (fun b => b < B) ids').
      { rewrite Ei. apply Forall_map. eapply Forall_impl; [|exact Sl]. intros i Hi. cbv beta in *. rewrite Forall_forall in HB. apply HB, nth_In, Hi. }
      assert (Hne' : ids' <> []).
      { destruct ids as [|a ids0]; [congruence|]. intros E. specialize (Hin a (or_introl eq_refl)). rewrite E in Hin. destruct Hin. }
      assert (Hlen' : length ids' <= length ids) by (rewrite Ei, map_length; now apply select_length).
      set (q := seg D rows' ids' B) in *.
      assert (Hq : cloud GPU eps D rows' ids' B q) by (now apply seg_cloud).
      pose proof (cloud_call _ _ _ _ _ _ _ (OpSetShape shape) Hq) as Hq'. cbn [History.step] in Hq'.
      assert (Gq : all_nonempty B ids' -> good (fst (set_batch_shape q shape))).
      { intros Ha. apply set_batch_shape_good. apply (init_segmented_ids_good D rows' ids' (Some B) q); auto.
        unfold init. cbn. rewrite HL', Nat.eqb_refl. reflexivity. }
      assert (Hset : snd (set_batch_shape q shape) = Ok tt /\ bshape (fst (set_batch_shape q shape)) = shape).
      { unfold set_batch_shape. destruct shape as [sh|]; [|auto]. cbn [bsize q seg]. rewrite (Hpr sh eq_refl), Nat.eqb_refl. auto. }
      destruct Hset as [Eset Hsh']. exists tt. split; [exact Eset|].
      apply (IH rows' ids' _ _ Hq' Hsh' Hpr Hne' ltac:(lia) Hgs).
      intros ps css ns (-> & data & Hch & Hcl & Hns & Hgd). apply HP. split; [reflexivity|].
      exists ((rows', ids') :: data). split; [now constructor|].
      destruct (ga_shape GPU eps p) as [Gs _]. rewrite <- Eg in Gs. pose proof (cloud_aabb _ _ _ _ _ _ _ Hc) as Hc'. rewrite <- Eg in Hc'.
      split; [|split].
      + constructor; [|exact Hcl]. cbn [fst snd]. split; [exact Hc'|]. congruence.
      + cbn. now rewrite Hns.
      + intros Ha G. assert (Ha' : all_nonempty B ids') by (intros b Hb; auto).
        constructor; [|exact (Hgd Ha' (Gq Ha'))]. rewrite Eg. now apply get_aabb_good.
  Qed.
End Construct.

Lemma hierarchy_built active sactive pactive bactive warp time eps D rows ids B p sizes mode (P : hierarchy -> Prop) :
  device_samples active sactive pactive bactive warp ->
  cloud GPU eps D rows ids B p -> cuda_buildable (scan_limit active warp) eps D ids sizes ->
  means mode poisson_names \/ means mode average_names ->
  (forall h, built eps D B mode (bshape p) sizes rows ids (fst (get_aabb GPU eps p)) (hclouds h) (hcells h) (hnbhs h) ->
     hdim h = D -> hbshape h = bshape p -> P h) ->
  mk_hierarchy_gpu active sactive warp time eps p (map CVector sizes) mode P.
Proof.
  intros Hdev Hc [He HD Hne Hl Hs] Hm HP. unfold mk_hierarchy_gpu. cbv zeta.
  destruct (get_aabb_cloud _ _ _ _ _ _ _ (cloud_is _ _ _ _ _ _ _ Hc)) as (p' & a & Ea & Hi & _).
  pose proof (cloud_aabb _ _ _ _ _ _ _ Hc) as Hc'. destruct (ga_shape GPU eps p) as [Es _].
  rewrite Ea in *. cbn [fst snd] in *. exists a. split; [reflexivity|]. rewrite (ic_dim _ _ _ _ _ _ _ Hi), Es.
  apply (levels_built active sactive pactive bactive warp time eps D B mode (bshape p) Hdev He HD Hm sizes rows ids p'); auto.
  intros s. exact (cloud_shape_fits _ _ _ _ _ _ _ s Hc).
Qed.

Lemma cuda_any eps D mode css rows ids data :
  chain (next_level_cuda mode eps D) css ((rows, ids) :: data) -> length rows = length ids ->
  forall i j b b', i <= j -> nth_error ((rows, ids) :: data) i = Some b -> nth_error ((rows, ids) :: data) j = Some b' ->
    thinned b b' /\ (means mode poisson_names -> subset_of b b').
Proof.
  intros Hch HL i j b b' Hij E1 E2. split; [|intros Hm].
  - eapply (chain_any (next_level_cuda mode eps D) (fun b => length (fst b) = length (snd b)) thinned); [| | |exact Hch| |exact Hij|exact E1|exact E2].
    + intros x y z Hy HR. split; [|eapply cuda_thinned; eauto]. destruct (cuda_reps _ _ _ _ _ _ Hy HR) as (_ & _ & _ & _ & H & _). exact H.
    + intros; apply thinned_refl.
    + intros x y z _. apply thinned_trans.
    + intros y Ey. inversion Ey. exact HL.
  - eapply (chain_any (next_level_cuda mode eps D) (fun b => length (fst b) = length (snd b)) subset_of); [| | |exact Hch| |exact Hij|exact E1|exact E2].
    + intros x y z Hy HR. split; [|eapply cuda_subset; eauto]. destruct (cuda_reps _ _ _ _ _ _ Hy HR) as (_ & _ & _ & _ & H & _). exact H.
    + intros y Hy. now apply subset_refl.
    + intros x y z. apply subset_trans.
    + intros y Ey. inversion Ey. exact HL.
Qed.

(** C64. With the CUDA operations, for every interleaving of the threads of every
    kernel launch on a device of any size, building the hierarchy succeeds. It
    has one level more than there are cell sizes, level 0 is the given cloud, every
    level keeps batch size and batch shape and is a Poisson sample for the
    ellipsoid of the sizes respectively the cell average of the level above;
    between any two levels no element gains points or becomes empty, and with
    Poisson sampling the lower one is a subset of the upper one. Unlike with the
    fallback (C25) levels with a single point are no problem. *)
Lemma C64_hierarchy_partial_proof :
  forall active sactive pactive bactive warp time eps D rows ids B p sizes mode,
    device_samples active sactive pactive bactive warp ->
    cloud GPU eps D rows ids B p -> cuda_buildable (scan_limit active warp) eps D ids sizes ->
    means mode poisson_names \/ means mode average_names ->
    mk_hierarchy_gpu active sactive warp time eps p (map CVector sizes) mode (fun h => exists data,
      h_len h = S (length sizes) /\
      chain (next_level_cuda mode eps D) (map (filled_with_first D) sizes) ((rows, ids) :: data) /\
      (forall i b, nth_error ((rows, ids) :: data) i = Some b ->
         exists q, h_getitem h (Z.of_nat i) = Ok q /\
           cloud GPU eps D (fst b) (snd b) B q /\ bshape q = bshape p) /\
      (forall i j b b', i <= j -> nth_error ((rows, ids) :: data) i = Some b ->
         nth_error ((rows, ids) :: data) j = Some b' ->
         thinned b b' /\ (means mode poisson_names -> subset_of b b'))).
Proof.
  intros active sactive pactive bactive warp time eps D rows ids B p sizes mode Hdev Hc Hb Hm.
  eapply hierarchy_built; eauto. intros h (_ & data & Hch & Hcl & _) _ _. exists data.
  split; [|split; [exact Hch|split]].
  - unfold h_len. pose proof (F2_length _ _ _ Hcl) as X. pose proof (chain_length _ _ _ Hch) as Y.
    rewrite map_length in Y. exact (eq_trans (eq_sym X) Y).
  - intros i b Hi. unfold h_getitem. rewrite py_nth_nat. destruct (F2_nth _ _ _ _ _ Hcl Hi) as (q & -> & H). eauto.
  - eapply cuda_any; [exact Hch|]. apply (ic_len _ _ _ _ _ _ _ (cloud_is _ _ _ _ _ _ _ Hc)).
Qed.

Lemma chain_impl {A C} (R S : A -> C -> C -> Prop) xs l : chain R xs l -> (forall x y z, In x xs -> R x y z -> S x y z) -> chain S xs l.
Proof.
  induction 1 as [y|x xs y z ys Hr Hc IH]; intros H; [constructor|]. constructor; [apply H; [now left|exact Hr]|]. apply IH. intros; apply H; [now right|auto].
Qed.
Lemma cuda_chain_equal mode eps D radii l : 2 <= D -> Forall (fun r => (0 < r)%Q) radii ->
  chain (next_level_cuda mode eps D) (map (fun r => repeat r D) radii) l -> chain (next_level mode eps D) (map (fun r => repeat r D) radii) l.
Proof.
  intros HD HF Hch. eapply chain_impl; [exact Hch|]. intros x y z Hx Hr. apply in_map_iff in Hx as (r & <- & Hi). rewrite Forall_forall in HF.
  now apply next_level_equal; [|apply HF|].
Qed.
Lemma filled_one D r : 2 <= D -> filled_with_first D [r] = repeat r D.
Proof. intros HD. destruct D; [lia|]. unfold filled_with_first. cbn [nth length]. replace (S D - 1) with D by lia. reflexivity. Qed.

(** C64. With one cell size per level, which then is the radius of the Poisson
    sampling, every level meets the specification of C25. *)
Lemma C64_equal_sizes_partial_proof :
  forall active sactive pactive bactive warp time eps D rows ids B p radii mode,
    device_samples active sactive pactive bactive warp ->
    cloud GPU eps D rows ids B p -> cuda_buildable (scan_limit active warp) eps D ids (map (fun r => [r]) radii) ->
    means mode poisson_names \/ means mode average_names ->
    mk_hierarchy_gpu active sactive warp time eps p (map (fun r => CVector [r]) radii) mode (fun h => exists data,
      chain (next_level mode eps D) (map (fun r => repeat r D) radii) ((rows, ids) :: data) /\
      Forall2 (fun b q => cloud GPU eps D (fst b) (snd b) B q /\ bshape q = bshape p) ((rows, ids) :: data) (hclouds h)).
Proof.
  intros active sactive pactive bactive warp time eps D rows ids B p radii mode Hdev Hc Hb Hm.
  rewrite <- (map_map (fun r => [r]) CVector). eapply hierarchy_built; eauto. intros h (_ & data & Hch & Hcl & _) _ _. exists data.
  destruct Hb as [He HD _ _ Hs]. split; [|exact Hcl]. apply cuda_chain_equal; [lia| |].
  - apply Forall_map in Hs. eapply Forall_impl; [|exact Hs]. cbn. intros r (_ & _ & X). now inversion X.
  - rewrite map_map in Hch. erewrite map_ext; [exact Hch|]. intros r. symmetry. apply filled_one. lia.
Qed.

Lemma average_chains eps D mode css : forall up up2 data data2 e e2 t ps, means mode average_names -> matched D t e up e2 up2 ps ->
  chain (next_level_cuda mode eps D) css (up :: data) -> chain (next_level mode eps D) css (up2 :: data2) ->
  forall i b b2, nth_error (up :: data) i = Some b -> nth_error (up2 :: data2) i = Some b2 -> exists qs, matched D t e b e2 b2 qs.
Proof.
  induction css as [|cs css IH]; intros up up2 data data2 e e2 t ps Hm HU H1 H2 i b b2 E1 E2.
  - inversion H1; inversion H2; subst. destruct i as [|[|i]]; try discriminate. injection E1 as <-. injection E2 as <-. eauto.
  - inversion H1 as [|? ? ? z1 ? R1 C1]; subst. inversion H2 as [|? ? ? z2 ? R2 C2]; subst.
    destruct i as [|i]; [injection E1 as <-; injection E2 as <-; eauto|].
    assert (NP : ~ means mode poisson_names).
    { intros Hp. pose proof (sample_mode_poisson _ Hp). pose proof (sample_mode_average _ Hm). congruence. }
    destruct R1 as [(Hp & _)|(_ & A1)]; [contradiction|]. destruct R2 as [(Hp & _)|(_ & A2)]; [contradiction|].
    destruct (average_match eps D cs t e up z1 e2 up2 z2 ps HU A1 A2) as (qs & HQ).
    exact (IH z1 z2 _ _ e e2 t qs Hm HQ C1 C2 i b b2 E1 E2).
Qed.
Lemma matched_self D e (b : batch) : matched D (fun _ => 0%Q) e b e b (map (fun i => (i, i)) (members (snd b) e)).
Proof.
  split; [|split].
  - rewrite map_map. cbn. now rewrite map_id.
  - rewrite map_map. cbn. now rewrite map_id.
  - intros i j d Hi Hd. apply in_map_iff in Hi as (k & E & _). injection E as <- <-. ring.
Qed.

(** C64. With cell average sampling the hierarchy built with the CUDA operations
    and the one built with the TensorFlow fallback have the same points on every
    level, for every interleaving of the threads: the points of an element can
    differ in their order only. *)
Lemma C64_same_as_fallback_partial_proof :
  forall active sactive pactive bactive warp time eps D rows ids B p sizes mode fuel draws h',
    device_samples active sactive pactive bactive warp ->
    cloud GPU eps D rows ids B p -> cuda_buildable (scan_limit active warp) eps D ids sizes ->
    means mode average_names -> buildable eps D rows ids B sizes fuel ->
    mk_hierarchy GPU eps (find_neighbors_tf GPU) fuel draws p (map CVector sizes) mode = Some (Ok h') ->
    mk_hierarchy_gpu active sactive warp time eps p (map CVector sizes) mode (fun h =>
      h_len h = h_len h' /\ hcells h = hcells h' /\ hbshape h = hbshape h' /\
      forall i q q' e, h_getitem h (Z.of_nat i) = Ok q -> h_getitem h' (Z.of_nat i) = Ok q' -> e < B ->
        exists ps, matched D (fun _ => 0%Q) e (pts q, bids q) e (pts q', bids q') ps).
Proof.
  intros active sactive pactive bactive warp time eps D rows ids B p sizes mode fuel draws h' Hdev Hc Hb Hm Hb' Eh'.
  destruct (hierarchy_gen eps D rows ids B p sizes mode fuel draws Hc Hb' ltac:(tauto)) as (r & Er & Hr). rewrite Er in Eh'. injection Eh' as ->.
  destruct Hr as ((Ec' & data' & Hch' & Hcl' & _) & _ & Es').
  eapply hierarchy_built; eauto. intros h (Ec & data & Hch & Hcl & _) _ Es.
  assert (HL : length (hclouds h) = length (hclouds h')).
  { exact (eq_trans (eq_sym (F2_length _ _ _ Hcl)) (eq_trans (chain_length _ _ _ Hch) (eq_trans (eq_sym (chain_length _ _ _ Hch')) (F2_length _ _ _ Hcl')))). }
  split; [exact HL|]. split; [congruence|]. split; [congruence|].
  intros i q q' e Eq Eq' He. unfold h_getitem in Eq, Eq'. rewrite py_nth_nat in Eq, Eq'.
  destruct (nth_error (hclouds h) i) as [x|] eqn:Ex; [|discriminate]. destruct (nth_error (hclouds h') i) as [x'|] eqn:Ex'; [|discriminate].
  injection Eq as ->. injection Eq' as ->.
  destruct (nth_error ((rows, ids) :: data) i) as [b|] eqn:E1.
  2:{ apply nth_error_None in E1. pose proof (F2_length _ _ _ Hcl) as X. assert (Y : i < length (hclouds h)) by (apply nth_error_Some; congruence). rewrite <- X in Y. exact (False_ind _ (Nat.lt_irrefl _ (Nat.lt_le_trans _ _ _ Y E1))). }
  destruct (nth_error ((rows, ids) :: data') i) as [b'|] eqn:E2.
  2:{ apply nth_error_None in E2. pose proof (F2_length _ _ _ Hcl') as X. assert (Y : i < length (hclouds h')) by (apply nth_error_Some; congruence). rewrite <- X in Y. exact (False_ind _ (Nat.lt_irrefl _ (Nat.lt_le_trans _ _ _ Y E2))). }
  destruct (F2_nth _ _ _ _ _ Hcl E1) as (y & Ey & Hy & _). rewrite Ex in Ey. injection Ey as <-.
  destruct (F2_nth _ _ _ _ _ Hcl' E2) as (y' & Ey' & Hy' & _). rewrite Ex' in Ey'. injection Ey' as <-.
  destruct (average_chains eps D mode _ _ _ data data' e e _ _ Hm (matched_self D e (rows, ids)) Hch Hch' i b b' E1 E2) as (qs & HQ).
  exists qs. pose proof (cloud_is _ _ _ _ _ _ _ Hy) as C1. pose proof (cloud_is _ _ _ _ _ _ _ Hy') as C2.
  rewrite (ic_pts _ _ _ _ _ _ _ C1), (ic_bids _ _ _ _ _ _ _ C1), (ic_pts _ _ _ _ _ _ _ C2), (ic_bids _ _ _ _ _ _ _ C2).
  destruct b, b'. exact HQ.
Qed.

(** ** Examples *)
Definition ex64_rows : list point := [[0#1; 0#1]; [1#2; 1#2]; [1#4; 0#1]].
Lemma ex64_cloud : cloud GPU (1#1000) 2 ex64_rows [0; 0; 0] 1 (seg 2 ex64_rows [0; 0; 0] 1).
Proof. apply seg_cloud; repeat constructor. Qed.
Lemma ex64_buildable active warp : cuda_buildable (scan_limit active warp) (1#1000) 2 [0; 0; 0] [[1#1]; [1#1]].
Proof.
  constructor; [reflexivity|lia|discriminate|apply Nat.le_trans with (2 ^ 8 * 2); [apply Nat.leb_le; reflexivity|apply Nat.le_add_r]|].
  repeat (constructor; [split; [discriminate|split; [cbn; lia|constructor; [reflexivity|constructor]]]|]). constructor.
Qed.
Lemma single_sample D r (up lo : batch) mode eps : means mode poisson_names -> length (fst up) = length (snd up) -> snd up <> [] ->
  (forall i j, i < length (snd up) -> j < length (snd up) ->
     nth i (snd up) 0 = nth j (snd up) 0 /\ (dist2 D (nth i (fst up) []) (nth j (fst up) []) < r * r)%Q) ->
  2 <= D -> (0 < r)%Q -> next_level_cuda mode eps D (repeat r D) up lo ->
  exists i, i < length (snd up) /\ lo = ([nth i (fst up) []], [nth i (snd up) 0]).
Proof.
  intros Hm HL Hne Hall HD Hr H. apply next_level_equal in H; auto. destruct H as [(_ & sel & (Sn & Sl & Ss & Sc) & E1 & E2)|(Hm' & _)].
  2:{ pose proof (sample_mode_poisson _ Hm). pose proof (sample_mode_average _ Hm'). congruence. }
  replace (nth 0 (repeat r D) 0%Q) with r in * by (destruct D; [lia|reflexivity]). rewrite Forall_forall in Sl.
  destruct sel as [|a [|b sel]].
  - exfalso. destruct (snd up) as [|x l] eqn:E; [congruence|]. destruct (Sc 0 ltac:(cbn; lia)) as (i & [] & _).
  - exists a. split; [apply Sl; now left|]. destruct lo as [u v]. cbn [fst snd map] in *. congruence.
  - exfalso. destruct (Hall a b) as [A B]; [apply Sl; now left|apply Sl; right; now left|]. inversion Sn as [|? ? N1 N2]; subst.
    specialize (Ss a b (or_introl eq_refl) (or_intror (or_introl eq_refl)) ltac:(intros ->; apply N1; now left) A). lra.
Qed.

(** A cloud that the fallback cannot put into a hierarchy (C25). *)
Example C64_hierarchy_partial_ex_proof :
  forall active sactive pactive bactive warp time, device_samples active sactive pactive bactive warp ->
    cloud GPU (1#1000) 2 ex64_rows [0; 0; 0] 1 (seg 2 ex64_rows [0; 0; 0] 1) /\
    cuda_buildable (scan_limit active warp) (1#1000) 2 [0; 0; 0] [[1#1]; [1#1]] /\
    mk_hierarchy_gpu active sactive warp time (1#1000) (seg 2 ex64_rows [0; 0; 0] 1) [CVector [1#1]; CVector [1#1]] "poisson"
      (fun h => map (fun q => length (pts q)) (hclouds h) = [3; 1; 1]).
Proof.
  intros active sactive pactive bactive warp time Hdev. split; [exact ex64_cloud|]. split; [apply ex64_buildable|].
  assert (Hm : means "poisson" poisson_names) by (apply means_poisson; cbn; tauto).
  change [CVector [1#1]; CVector [1#1]] with (map CVector [[1#1]; [1#1]]).
  eapply hierarchy_built; [exact Hdev|exact ex64_cloud|apply ex64_buildable|now left|].
  intros h (_ & data & Hch & Hcl & _) _ _. cbn [map] in Hch.
  change (filled_with_first 2 [1#1]) with (repeat (1#1)%Q 2) in Hch.
  inversion Hch as [|? ? ? z1 ? R1 C1]; subst. inversion C1 as [|? ? ? z2 ? R2 C2]; subst. inversion C2; subst.
  assert (X1 : exists i, i < length (snd (ex64_rows, [0; 0; 0])) /\ z1 = ([nth i ex64_rows []], [nth i [0; 0; 0] 0])).
  { apply (single_sample 2 (1#1) (ex64_rows, [0; 0; 0]) z1 "poisson" (1#1000) Hm eq_refl); [discriminate| |lia|reflexivity|exact R1].
    cbn [fst snd length ex64_rows]. intros i j Hi Hj. destruct i as [|[|[|i]]]; [..|lia]; destruct j as [|[|[|j]]]; try lia; split; reflexivity. }
  destruct X1 as (i & Hi & ->).
  assert (X2 : exists k, k < 1 /\ z2 = ([nth k [nth i ex64_rows []] []], [nth k [nth i [0; 0; 0] 0] 0])).
  { apply (single_sample 2 (1#1) ([nth i ex64_rows []], [nth i [0; 0; 0] 0]) z2 "poisson" (1#1000) Hm eq_refl); [discriminate| |lia|reflexivity|exact R2].
    cbn [fst snd length]. intros a b Ha Hb. destruct a as [|a]; [|lia]. destruct b as [|b]; [|lia]. split; [reflexivity|]. cbn [nth].
      cbn [fst snd length ex64_rows] in Hi. destruct i as [|[|[|i]]]; [..|lia]; reflexivity. }
  destruct X2 as (k & Hk & ->).
  inversion Hcl as [|? q0 ? ? [Q0 _] F1]; subst. inversion F1 as [|? q1 ? ? [Q1 _] F2]; subst. inversion F2 as [|? q2 ? ? [Q2 _] F3]; subst. inversion F3; subst.
  cbn [map fst snd] in *.
  rewrite (ic_pts _ _ _ _ _ _ _ (cloud_is _ _ _ _ _ _ _ Q0)), (ic_pts _ _ _ _ _ _ _ (cloud_is _ _ _ _ _ _ _ Q1)), (ic_pts _ _ _ _ _ _ _ (cloud_is _ _ _ _ _ _ _ Q2)).
  reflexivity.
Qed.

Example C64_equal_sizes_partial_ex_proof :
  cloud GPU (1#1000) 2 exN_rows exN_ids 2 (seg 2 exN_rows exN_ids 2) /\
  (forall active warp, cuda_buildable (scan_limit active warp) (1#1000) 2 exN_ids (map (fun r => [r]) [1#1; 4#1]%Q)) /\
  device_samples (fun _ => 1) (fun _ => 2) 3 5 32.
Proof.
  split; [exact exN_cloud|]. split.
  - intros active warp. constructor; [reflexivity|lia|discriminate|apply Nat.le_trans with (2 ^ 8 * 2); [apply Nat.leb_le; reflexivity|apply Nat.le_add_r]|].
    repeat (constructor; [split; [discriminate|split; [cbn; lia|constructor; [reflexivity|constructor]]]|]). constructor.
  - split; [|intros; discriminate]. constructor; try (intros; lia). exists 8. reflexivity.
Qed.

Lemma two_members ids : Forall (fun b => b < 2) ids -> length ids = length (members ids 0) + length (members ids 1).
Proof.
  intros HF. unfold members. transitivity (length (seq 0 (length ids))); [now rewrite seq_length|].
  assert (H : forall i, In i (seq 0 (length ids)) -> nth i ids 0 < 2).
  { intros i Hi. apply in_seq in Hi. rewrite Forall_forall in HF. apply HF, nth_In. lia. }
  induction (seq 0 (length ids)) as [|i l IH]; [reflexivity|]. cbn [filter length].
  pose proof (H i (or_introl eq_refl)) as Hi. specialize (IH (fun k Hk => H k (or_intror Hk))).
  destruct (nth i ids 0) as [|[|m]]; [| |lia]; cbn [Nat.eqb length]; lia.
Qed.
Example C64_same_as_fallback_partial_ex_proof :
  buildable (1#1000) 2 exN_rows exN_ids 2 [[1#1]; [4#1]] 6 /\
  exists h', mk_hierarchy GPU (1#1000) (find_neighbors_tf GPU) 6 (fun _ k => k) (seg 2 exN_rows exN_ids 2)
      [CVector [1#1]; CVector [4#1]] "cell average" = Some (Ok h') /\
    map (fun q => length (pts q)) (hclouds h') = [6; 4; 2] /\
    forall active sactive pactive bactive warp time, device_samples active sactive pactive bactive warp ->
      mk_hierarchy_gpu active sactive warp time (1#1000) (seg 2 exN_rows exN_ids 2) [CVector [1#1]; CVector [4#1]] "cell average"
        (fun h => map (fun q => length (pts q)) (hclouds h) = [6; 4; 2]).
Proof.
  destruct C25_structure_partial_ex_proof as (_ & Hb & h' & Eh & El). split; [exact Hb|]. exists h'. split; [exact Eh|]. split; [exact El|].
  intros active sactive pactive bactive warp time Hdev. destruct C64_equal_sizes_partial_ex_proof as (Hc & Hcb & _).
  assert (Hm : means "cell average" average_names) by (apply means_average; cbn; tauto).
  destruct (hierarchy_gen (1#1000) 2 exN_rows exN_ids 2 _ [[1#1]; [4#1]] "cell average" 6 (fun _ k => k) Hc Hb (or_intror Hm)) as (r & Er & Hr).
  cbn [map] in Er. rewrite Er in Eh. injection Eh as ->. destruct Hr as ((_ & data' & Hch' & Hcl' & _) & _).
  change [CVector [1#1]; CVector [4#1]] with (map CVector [[1#1]; [4#1]]).
  eapply hierarchy_built; [exact Hdev|exact Hc|exact (Hcb active warp)|now right|].
  intros h (_ & data & Hch & Hcl & _) _ _. rewrite <- El.
  assert (HL : length (hclouds h) = length (hclouds h')).
  { exact (eq_trans (eq_sym (F2_length _ _ _ Hcl)) (eq_trans (chain_length _ _ _ Hch) (eq_trans (eq_sym (chain_length _ _ _ Hch')) (F2_length _ _ _ Hcl')))). }
  assert (K : forall i q q', nth_error (hclouds h) i = Some q -> nth_error (hclouds h') i = Some q' -> length (pts q) = length (pts q')).
  { intros i q q' Ex Ex'.
    destruct (nth_error ((exN_rows, exN_ids) :: data) i) as [b|] eqn:E1.
    2:{ apply nth_error_None in E1. pose proof (F2_length _ _ _ Hcl) as X. assert (Y : i < length (hclouds h)) by (apply nth_error_Some; congruence). rewrite <- X in Y. exact (False_ind _ (Nat.lt_irrefl _ (Nat.lt_le_trans _ _ _ Y E1))). }
    destruct (nth_error ((exN_rows, exN_ids) :: data') i) as [b'|] eqn:E2.
    2:{ apply nth_error_None in E2. pose proof (F2_length _ _ _ Hcl') as X. assert (Y : i < length (hclouds h')) by (apply nth_error_Some; congruence). rewrite <- X in Y. exact (False_ind _ (Nat.lt_irrefl _ (Nat.lt_le_trans _ _ _ Y E2))). }
    destruct (F2_nth _ _ _ _ _ Hcl E1) as (y & Ey & Hy & _). rewrite Ex in Ey. injection Ey as <-.
    destruct (F2_nth _ _ _ _ _ Hcl' E2) as (y' & Ey' & Hy' & _). rewrite Ex' in Ey'. injection Ey' as <-.
    pose proof (fun e => average_chains (1#1000) 2 "cell average" _ _ _ data data' e e _ _ Hm (matched_self 2 e (exN_rows, exN_ids)) Hch Hch' i b b' E1 E2) as HQ.
    pose proof (cloud_is _ _ _ _ _ _ _ Hy) as C1. pose proof (cloud_is _ _ _ _ _ _ _ Hy') as C2.
    rewrite (ic_pts _ _ _ _ _ _ _ C1), (ic_pts _ _ _ _ _ _ _ C2), (ic_len _ _ _ _ _ _ _ C1), (ic_len _ _ _ _ _ _ _ C2).
    rewrite (two_members (snd b)) by apply (ic_ids _ _ _ _ _ _ _ C1). rewrite (two_members (snd b')) by apply (ic_ids _ _ _ _ _ _ _ C2).
    destruct (HQ 0) as (ps0 & P0 & P0' & _). destruct (HQ 1) as (ps1 & P1 & P1' & _).
    apply Permutation_length in P0, P0', P1, P1'. rewrite map_length in *. lia. }
  clear - HL K. revert HL K. generalize (hclouds h) (hclouds h'). induction l as [|q l IH]; intros [|q' l'] HL K; try discriminate; [reflexivity|].
  cbn [map]. f_equal; [exact (K 0 q q' eq_refl eq_refl)|]. apply IH; [now injection HL|]. intros i a a' Ha Ha'. exact (K (S i) a a' Ha Ha').
Qed.
