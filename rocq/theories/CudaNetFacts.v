(** Facts about the layers and levels of the classification networks with the
    CUDA operations. *)
From Coq Require Import String List Arith ZArith NArith QArith Reals Qreals Lia Lra Bool Permutation.
From Verif Require Import GpuBasis GpuPdf Cuda GpuGrid Tensor TensorFacts Spec SpecText TextFacts PointCloud SpecCloud PointCloudFacts QFacts Grid SpecGrid GridFacts
  Neighbors SpecNeighbors NeighborFacts NeighborProofs Neighborhood NeighborhoodFacts NeighborhoodProofs
  Sampling SpecSampling SamplingFacts SamplingProofs Hierarchy SpecHierarchy HierarchyFacts HierarchyProofs LevelFacts CloudProofs Pdf SpecPdf PdfFacts PdfProofs
  RTensor RTensorFacts Kernels KernelProofs Layers SpecLayers LayerFacts LayerLink LayerProofs ConvProofs Blocks SpecBlocks BlockFacts BlockProofs
  Classifier SpecClassifier ClassifierFacts GpuNeighbors GpuSampling SpecGpuBasis GpuPdfProofs
  CudaLayers SpecCudaLayers CudaLayerProofs CudaNetwork SpecCudaNetwork CudaHierarchyFacts CudaHierarchyProofs.
Import ListNotations.
Local Open Scope nat_scope.

Lemma cuda_formula_matrix t mlps hidden v cin cout r up lo F : matrix (length (snd lo)) cout (cuda_formula t mlps hidden v cin cout r up lo F).
Proof.
  pose proof (formula_matrix t mlps hidden v cin cout r up lo F) as [H1 H2]. unfold cuda_formula. destruct t; try (split; assumption).
  cbv zeta. split; [now rewrite map_length|]. apply Forall_map. eapply Forall_impl; [|exact H2]. cbv beta. intros a Ha. now rewrite map_length.
Qed.

(** The convolution of the networks, whichever its type. *)
Lemma script_conv_gpu_ok active pactive bactive warp time eps name t mlps hidden cin cout v l r up lo pin pout feats F srt out (P : feat -> Prop) :
  device_ok active pactive bactive warp ->
  conv_named name t -> script_layer name mlps hidden 32 15 (Ok cin) (Ok cout) v = Ok l ->
  cuda_workable (scan_limit active warp) eps 3 r (fst up) (snd up) pin (fst lo) (snd lo) pout -> length (snd up) <= scan_limit active warp ->
  In (hidden * mlps) [8; 16; 32; 64] -> cuda_channels cin -> 0 < cout -> given feats pin cin F ->
  returned pout srt false cout (cuda_formula t mlps hidden v cin cout r up lo F) = Ok out -> P out ->
  script_conv_gpu active pactive bactive warp time eps l feats pin pout r srt P.
Proof.
  intros Hdev Hn El W Hlim Hk Hi Ho Hg Hr HP. destruct Hn as [[-> ->]|[[-> ->]|[-> ->]]]; unfold script_layer in El;
    cbn [String.eqb Ascii.eqb Bool.eqb bind new_layer] in El.
  - apply bind_ok in El. destruct El as (c & Ec & El). apply ok_inj in El. subst l. cbn [script_conv_gpu].
    eapply mcconv_runs with (out := out); [exact Hdev|exact W|exact Hlim|exact Ec|exact Ho| | |exact Hg|lra| |exact HP].
    + right; left. split; [apply means_lower; [repeat constructor|cbn; tauto]|reflexivity].
    + split; [exact Hk|exact Hi].
    + rewrite <- Hr. unfold cuda_formula, script_formula. cbv zeta. f_equal. unfold table. rewrite map_map. apply map_ext. intros i.
      rewrite map_map. reflexivity.
  - apply ok_inj in El. subst l. cbn [script_conv_gpu].
    eapply pointconv_runs with (out := out) (mx := fun i => fold_right Rmax 0%R (map (density 3 (repeat (2 / 10)%R 3) (repeat r 3) (fst up) (snd up)) (near_points 3 r (fst up) (snd up) (fst lo) (snd lo) i)));
      [exact Hdev|exact W|exact Hlim| | |exact Hg|lra| |exact Hr|exact HP].
    + split; [cbn; tauto|exact Hi].
    + left. split; [apply means_lower; [repeat constructor|cbn; tauto]|reflexivity].
    + intros i Hi' Hne. apply fold_max_ok; [destruct (near_points _ _ _ _ _ _ i); [congruence|discriminate]|].
      apply Forall_forall. intros x Hx. apply in_map_iff in Hx. destruct Hx as (j & <- & Hj).
      apply density_pos; [reflexivity|repeat constructor; lra|apply (cw_radius _ _ _ _ _ _ _ _ _ _ W)|].
      unfold near_points in Hj. apply filter_In in Hj. destruct Hj as [Hj _]. apply in_seq in Hj. lia.
  - apply bind_ok in El. destruct El as (c & Ec & El). apply ok_inj in El. subst l. cbn [script_conv_gpu].
    unfold mk_kpconv in Ec. cbn [Nat.eqb negb andb] in Ec. rewrite kernel_point_ok in Ec.
    eapply (kpconv_runs active pactive bactive warp time eps 3 r (fst up) (snd up) pin (fst lo) (snd lo) pout cin cout 15 false "linear"
       (fun v s => Rmax 0 (1 - v / s))%R (kernel_point (cv_angles v)) (cv_kw v) (fun _ => 0%R)
       (fun n => spherical_kernel_points n (Some (cv_angles v))) c feats F None srt false (fun o _ => P o) Hdev W) with (out := out); [exact Ec|exact Hi|lia|now left|exact Hg| |intros; exact HP].
    rewrite <- Hr. f_equal. unfold cuda_formula, script_formula. cbv zeta. unfold table. apply map_ext. intros i. apply map_ext. intros o. unfold kp_formula, weighted_sum.
      apply sum_over_ext. intros c0 _. apply sum_over_ext. intros k _. f_equal. apply sum_over_ext. intros p _. f_equal. f_equal. f_equal. field.
Qed.

(** What is known about the cloud [q] of a level with data [b]. *)
Record cuda_level (limit : nat) (eps : Q) (B : nat) (sizes : list nat) (b : batch) (q : pc) : Prop := {
  cl_cloud : cloud GPU eps 3 (fst b) (snd b) B q;
  cl_good : good q;
  cl_shape : out_shape q = [B];
  cl_all : all_nonempty B (snd b);
  cl_some : snd b <> [];
  cl_limit : length (snd b) <= limit;
  cl_few : forall e, e < B -> count_occ Nat.eq_dec (snd b) e <= nth e sizes 0 }.

Lemma cuda_shorter eps D mode css rows ids data :
  chain (next_level_cuda mode eps D) css ((rows, ids) :: data) -> length rows = length ids ->
  forall i b, nth_error ((rows, ids) :: data) i = Some b -> length (snd b) <= length ids.
Proof.
  intros Hch HL i b E.
  eapply (chain_any (next_level_cuda mode eps D) (fun b => length (fst b) = length (snd b)) (fun x y => length (snd y) <= length (snd x)))
    with (i := 0) (j := i) (y := (rows, ids)) (z := b); [| | |exact Hch| |lia|reflexivity|exact E].
  - intros x y z Hy HR. destruct (cuda_reps _ _ _ _ _ _ Hy HR) as (sel & N1 & N2 & E2 & E1 & _). split; [exact E1|].
    rewrite E2, map_length. rewrite <- (seq_length (length (snd y)) 0). apply NoDup_incl_length; [exact N1|]. intros j Hj. rewrite Forall_forall in N2.
    apply in_seq. specialize (N2 j Hj). lia.
  - intros; lia.
  - intros; lia.
  - intros y Ey. inversion Ey. exact HL.
Qed.
Lemma total_ids sizes : length (ids_of_sizes sizes) = fold_right Nat.add 0 sizes.
Proof.
  unfold ids_of_sizes. assert (H : forall (l : list nat) k, length (concat (map (fun b => repeat b (nth (b - k) l 0)) (seq k (length l)))) = fold_right Nat.add 0 l).
  { induction l as [|n l IH]; intros k; [reflexivity|]. cbn [length seq map concat fold_right]. rewrite app_length, repeat_length, Nat.sub_diag.
    change (nth 0 (n :: l) 0) with n. f_equal. rewrite <- (IH (S k)). f_equal. f_equal. apply map_ext_in. intros b Hb. apply in_seq in Hb.
    replace (b - k) with (S (b - S k)) by lia. reflexivity. }
  rewrite <- (H sizes 0). f_equal. f_equal. apply map_ext. intros b. now rewrite Nat.sub_0_r.
Qed.

Lemma script_hierarchy_gpu_ok active sactive pactive bactive warp time eps B V points sizes radii mode (P : hierarchy -> Prop) :
  device_samples active sactive pactive bactive warp -> cuda_input (scan_limit active warp) eps B V points sizes radii mode ->
  (forall h data, let levels := (valid_rows sizes V points, ids_of_sizes sizes) :: data in
    chain (next_level mode eps 3) (map (fun r => repeat r 3) radii) levels ->
    length (valid_rows sizes V points) = length (ids_of_sizes sizes) ->
    length (hclouds h) = length levels ->
    (forall i b, nth_error levels i = Some b ->
      exists q, nth_error (hclouds h) i = Some q /\ cuda_level (scan_limit active warp) eps B sizes b q) -> P h) ->
  script_hierarchy_gpu active sactive warp time eps B (Padded [B] V points) sizes radii mode P.
Proof.
  intros Hdev [[P1 P2] [S1 S2] HB Hm He Hl Hr] HP. set (rows := valid_rows sizes V points) in *. set (ids := ids_of_sizes sizes) in *.
  assert (HD : describes (PN 3 (Padded [B] V points)) None (Some B) (Some (ITensor [B] sizes)) 3 rows ids (nprod [B])).
  { apply by_padding; cbn [nprod fold_right]; rewrite ?Nat.mul_1_r; auto. eapply Forall_impl; [|exact S2]. cbn. intros. lia. }
  assert (EB : nprod [B] = B) by (unfold nprod; cbn; lia). rewrite EB in HD.
  destruct (describes_init _ _ _ _ _ _ _ _ HD) as (p & Ep & [G F1 F2 F3 F4 F5] & _ & Hbs & _). cbn [pshape] in Hbs.
  assert (Hc : cloud GPU eps 3 rows ids B p).
  { eapply cloud_new; eauto.
    - pose proof (PointCloudFacts.g_len p G). congruence.
    - pose proof (PointCloudFacts.g_ids p G) as H. rewrite F3, F4 in H. exact H.
    - rewrite Forall_forall in *. intros x Hx. apply P2. eapply valid_rows_in; eauto. }
  assert (HN : all_nonempty B ids).
  { apply ids_nonempty; auto. eapply Forall_impl; [|exact S2]. cbn. lia. }
  assert (Hne : ids <> []) by (intros E; specialize (HN 0 ltac:(lia)); rewrite E in HN; exact HN).
  assert (Hln : length ids <= scan_limit active warp) by (unfold ids; rewrite total_ids; exact Hl).
  unfold script_hierarchy_gpu. rewrite S1. exists p. split; [exact Ep|].
  rewrite <- (map_map (fun r => [r]) CVector). eapply hierarchy_built; [exact Hdev|exact Hc| |exact Hm|].
  { constructor; [exact He|split; auto|exact Hne|exact Hln|]. apply Forall_map. eapply Forall_impl; [|exact Hr]. cbv beta. intros r Hr'. split; [discriminate|]. split; [cbn; lia|]. constructor; auto. }
  intros h (_ & data & Hch & Hcl & _ & Hgood) _ _.
  rewrite map_map in Hch. change (map (fun x => filled_with_first 3 [x]) radii) with (map (fun r => repeat r 3) radii) in Hch.
  pose proof (ic_len _ _ _ _ _ _ _ (cloud_is _ _ _ _ _ _ _ Hc)) as HL.
  apply (HP h data).
  - apply cuda_chain_equal; [lia|exact Hr|exact Hch].
  - exact HL.
  - symmetry. exact (F2_length _ _ _ Hcl).
  - intros i b Hi. destruct (F2_nth _ _ _ _ _ Hcl Hi) as (q & Eq & Hq1 & Hq2). exists q. split; [exact Eq|].
    destruct (get_aabb_good GPU eps p G) as [G' _]. specialize (Hgood HN G'). rewrite Forall_forall in Hgood.
    specialize (Hgood q (nth_error_In _ _ Eq)).
    destruct (cuda_any eps 3 mode _ rows ids data Hch HL 0 i (rows, ids) b ltac:(lia) eq_refl Hi) as [[T1 T2] _]. cbn [snd] in T1, T2.
    assert (HNb : all_nonempty B (snd b)) by (intros e He'; apply T2, HN, He').
    constructor; auto.
    + unfold out_shape. destruct (psizes q) as [t|] eqn:Eps.
      * apply (g_bsizes q Hgood [B] t); [congruence|auto].
      * now rewrite Hq2, Hbs.
    + intros E. specialize (HNb 0 ltac:(lia)). rewrite E in HNb. exact HNb.
    + eapply Nat.le_trans; [exact (cuda_shorter eps 3 mode _ rows ids data Hch HL i b Hi)|exact Hln].
    + intros e He'. specialize (T1 e). replace (nth e sizes 0) with (count_occ Nat.eq_dec ids e); [exact T1|].
      pose proof (ids_sizes_true sizes) as X. fold ids in X. rewrite S1 in X. rewrite <- X. unfold true_sizes. symmetry.
      exact (nth_map_seq (fun b => count_occ Nat.eq_dec ids b) B e 0 He').
Qed.

Lemma cuda_given limit eps B sizes V b q C features : cuda_level limit eps B sizes b q -> length sizes = B -> Forall (fun n => n <= V) sizes ->
  length features = B * V -> Forall (fun row => length row = C) features ->
  given (Feat C (inl (Padded [B] V features))) q C (rows_for V (snd b) features).
Proof.
  intros [Hc G Hs HN H1 H2 Hf] S1 S2 HF HC. pose proof (cloud_is _ _ _ _ _ _ _ Hc) as Hi. unfold rows_for.
  rewrite <- (ic_bids _ _ _ _ _ _ _ Hi). apply (given_padded q (Padded [B] V features) C); auto; cbn [pV prows].
  - now rewrite (ic_bsize _ _ _ _ _ _ _ Hi).
  - unfold wide_enough, true_sizes. rewrite (ic_bsize _ _ _ _ _ _ _ Hi), (ic_bids _ _ _ _ _ _ _ Hi). apply Forall_forall.
    intros n Hn. apply in_map_iff in Hn. destruct Hn as (e & <- & He). apply in_seq in He.
    specialize (Hf e ltac:(lia)). rewrite Forall_forall in S2. assert (HI : In (nth e sizes 0) sizes) by (apply nth_In; lia). specialize (S2 _ HI). lia.
Qed.
Lemma cuda_level_work limit eps B sizes up lo pin pout r : cuda_level limit eps B sizes up pin -> cuda_level limit eps B sizes lo pout -> (0 < r)%Q ->
  cuda_workable limit eps 3 r (fst up) (snd up) pin (fst lo) (snd lo) pout.
Proof.
  intros U L Hr. constructor.
  - exists B. split; [apply U|]. apply (ic_ids _ _ _ _ _ _ _ (cloud_is _ _ _ _ _ _ _ (cl_cloud _ _ _ _ _ _ L))).
  - exists eps, B. apply L.
  - lia.
  - left. lia.
  - exact Hr.
  - apply U.
  - split; apply L.
Qed.
