(** Facts about hierarchies built with the CUDA operations. *)
From Coq Require Import String List Arith ZArith NArith QArith Qround Lia Lqa Bool Permutation.
From Verif Require Import Tensor TensorFacts Spec PointCloud SpecCloud History PointCloudFacts QFacts Grid SpecGrid GridFacts Neighbors SpecNeighbors NeighborFacts Neighborhood Sampling SpecSampling SamplingFacts SamplingProofs Hierarchy SpecHierarchy HierarchyFacts HierarchyProofs
  Cuda CudaFacts GpuGrid GpuGridFacts GpuGridProofs SpecGpu GpuNeighbors GpuSampling SpecGpuSampling GpuSampleFacts GpuSampleProofs
  SpecCudaLayers SpecCudaNetwork CudaLayers CudaNetwork.
Import ListNotations.
Local Open Scope nat_scope.

Lemma mk_grid_gpu_from active warp eps D rows ids B p cs (P : grid -> Prop) :
  active <> 0 -> warp <> 0 -> 2 <= D <= 6 -> ids <> [] ->
  is_cloud GPU eps D rows ids B p -> valid_sizes D cs ->
  (forall g, is_gpu_grid eps D rows ids B (bcast D cs) g -> gcloud g = fst (get_aabb GPU eps p) -> P g) ->
  mk_grid_gpu active warp eps p cs P.
Proof.
  intros Ha Hw HD Hne Hc Hv HP. pose proof (valid_sizes_pos D cs Hv) as [Hl Hp]. destruct Hv as [_ HF].
  unfold mk_grid_gpu. rewrite (ic_dim _ _ _ _ _ _ _ Hc).
  destruct (get_aabb_cloud GPU eps D rows ids B p Hc) as (p' & a & E & Hc' & Hmin & Hmax).
  rewrite E in *. exists a. split; [auto|]. split; [auto|]. split; [auto|]. cbv zeta.
  pose proof Hc' as [H1 H2 H3 H4 H5 H6 H7 H8]. rewrite H1, H2.
  apply (compute_keys_gpu_ok active warp eps D rows ids B); auto.
  set (nc := num_cells D a (bcast D cs)). set (keys := map _ (seq 0 (length ids))).
  assert (Lk : length keys = length ids) by (unfold keys; rewrite map_length, seq_length; reflexivity).
  pose proof (argsort_lt (fun a b => b <=? a)%Z keys) as Hlt. fold (argsort_desc keys) in Hlt.
  rewrite (gather_map keys _ 0%Z) by exact Hlt.
  rewrite (gather_map rows _ []) by (rewrite H5, <- Lk; exact Hlt).
  rewrite (gather_map ids _ 0%nat) by (rewrite <- Lk; exact Hlt).
  eexists. eexists. eexists. do 3 (split; [reflexivity|]). apply HP; [constructor; cbn; auto|reflexivity].
Qed.

(** ** One level *)
Lemma cuda_reps mode eps D cs up lo : length (fst up) = length (snd up) ->
  next_level_cuda mode eps D cs up lo ->
  exists sel, NoDup sel /\ Forall (fun i => i < length (snd up)) sel /\
    snd lo = map (fun i => nth i (snd up) 0) sel /\ length (fst lo) = length (snd lo) /\
    (forall b, In b (snd up) -> In b (snd lo)).
Proof.
  intros HL [(_ & sel & (Hn & Hl & _ & Hc) & E1 & E2)|(Hm & Ha)].
  - exists sel. repeat split; auto; [now rewrite E1, E2, !map_length|].
    intros b Hb. apply (In_nth _ _ 0) in Hb as (j & Hj & <-). destruct (Hc j Hj) as (i & Hi & _ & _ & E & _). rewrite E2, E.
    now apply (in_map (fun i => nth i (snd up) 0)).
  - apply (next_level_reps mode eps D cs up lo HL). right. auto.
Qed.
Lemma cuda_rows mode eps D cs up lo : length (fst up) = length (snd up) ->
  Forall (fun r => length r = D) (fst up) -> next_level_cuda mode eps D cs up lo -> Forall (fun r => length r = D) (fst lo).
Proof.
  intros HL Hr [(_ & sel & (_ & Hl & _) & E1 & _)|(Hm & Ha)].
  - rewrite E1. apply Forall_map. eapply Forall_impl; [|exact Hl]. intros i Hi. cbv beta in *. rewrite Forall_forall in Hr.
    apply Hr, nth_In. lia.
  - apply (next_level_rows mode eps D cs up lo HL Hr). right. auto.
Qed.
Lemma cuda_thinned mode eps D cs up lo : length (fst up) = length (snd up) -> next_level_cuda mode eps D cs up lo -> thinned up lo.
Proof.
  intros HL H. destruct (cuda_reps _ _ _ _ _ _ HL H) as (sel & Hn & Hl & E & _ & Hin). split; [|exact Hin].
  intros e. rewrite E. now apply select_count.
Qed.
Lemma cuda_subset mode eps D cs up lo : means mode poisson_names -> next_level_cuda mode eps D cs up lo -> subset_of up lo.
Proof.
  intros Hm [(_ & sel & (Hn & Hl & _) & E1 & E2)|(Hm' & _)].
  - exists sel. auto.
  - pose proof (sample_mode_poisson _ Hm). pose proof (sample_mode_average _ Hm'). congruence.
Qed.

(** With equal radii the ellipsoid is the ball. *)
Lemma dist_scaled (f : nat -> Q) r l : (0 < r)%Q ->
  (fold_right Qplus 0 (map (fun d => f d / r * (f d / r)) l) * (r * r) == fold_right Qplus 0 (map (fun d => f d * f d) l))%Q.
Proof.
  intros Hr. induction l as [|d l IH]; cbn [map fold_right]; [ring|]. rewrite <- IH. field. lra.
Qed.
Lemma ball_iff D r rows ids j i : (0 < r)%Q ->
  inside_ellipsoid D (repeat r D) rows ids rows ids j i <->
  j < length ids /\ i < length ids /\ nth j ids 0 = nth i ids 0 /\ (dist2 D (nth j rows []) (nth i rows []) < r * r)%Q.
Proof.
  intros Hr. unfold inside_ellipsoid, dist2. cbv zeta.
  set (f := fun d => (nth d (nth j rows []) 0 - nth d (nth i rows []) 0)%Q).
  assert (E : map (fun d => ((nth d (nth j rows []) 0 - nth d (nth i rows []) 0) / nth d (repeat r D) 1 * ((nth d (nth j rows []) 0 - nth d (nth i rows []) 0) / nth d (repeat r D) 1))%Q) (seq 0 D)
    = map (fun d => (f d / r * (f d / r))%Q) (seq 0 D)).
  { apply map_ext_in. intros d Hd. apply in_seq in Hd. rewrite (nth_indep _ 1%Q r) by (rewrite repeat_length; lia). now rewrite nth_repeat. }
  rewrite E. pose proof (dist_scaled f r (seq 0 D) Hr) as X.
  set (u := fold_right Qplus 0%Q (map (fun d => (f d / r * (f d / r))%Q) (seq 0 D))) in *.
  match goal with |- _ <-> (_ /\ _ /\ _ /\ (?v < _)%Q) => assert (Y : (v == u * (r * r))%Q) by (rewrite X; reflexivity) end.
  assert (P : (0 < r * r)%Q) by nra.
  split; intros (A & A' & A'' & H); (split; [exact A|split; [exact A'|split; [exact A''|]]]).
  - rewrite Y. nra.
  - rewrite Y in H. nra.
Qed.
Lemma ball_sample D r rows ids sel : (0 < r)%Q -> ellipsoid_sample D (repeat r D) rows ids sel -> poisson_sample D r rows ids sel.
Proof.
  intros Hr (Hn & Hl & Hs & Hc). split; [exact Hn|]. split; [exact Hl|]. rewrite Forall_forall in Hl. split.
  - intros i j Hi Hj Hij He. specialize (Hs i j Hi Hj Hij). apply Qnot_lt_le. intros H. apply Hs. apply ball_iff; auto.
  - intros j Hj. destruct (Hc j Hj) as (i & Hi & I). apply ball_iff in I; [|exact Hr]. exists i. tauto.
Qed.
Lemma next_level_equal mode eps D r up lo : 2 <= D -> (0 < r)%Q -> next_level_cuda mode eps D (repeat r D) up lo -> next_level mode eps D (repeat r D) up lo.
Proof.
  intros HD Hr [(Hm & sel & Hs & E)|(Hm & Ha)]; [left|right; auto]. split; [exact Hm|]. exists sel. split; [|exact E].
  replace (nth 0 (repeat r D) 0%Q) with r by (destruct D; [lia|reflexivity]). now apply ball_sample.
Qed.
