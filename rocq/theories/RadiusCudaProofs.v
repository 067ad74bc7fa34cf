(** Proofs that a larger radius loses no neighbor with the CUDA operations (C85).
    The statements are copied into PropertiesRadiusCuda.v. *)
From Coq Require Import String List Arith ZArith NArith QArith Reals Qreals Lia Lra Bool Permutation.
From Verif Require Import GpuBasis GpuPdf Cuda GpuGrid GpuNeighbors Tensor TensorFacts Spec SpecText TextFacts PointCloud SpecCloud PointCloudFacts QFacts Grid SpecGrid GridFacts
  Neighbors SpecNeighbors NeighborFacts NeighborProofs Neighborhood NeighborhoodFacts NeighborhoodProofs
  Sampling SpecSampling SamplingFacts SamplingProofs Hierarchy SpecHierarchy HierarchyFacts Pdf SpecPdf PdfFacts PdfProofs
  RTensor RTensorFacts Layers SpecLayers LayerFacts LayerLink LayerProofs ConvProofs MoveProofs BlockFacts
  CudaLayers SpecCudaLayers CudaLayerFacts CudaConvFacts CudaLayerProofs LinearProofs SpecMonotone MonotoneProofs MonotoneCudaProofs RadiusProofs.
Import ListNotations.
Local Open Scope nat_scope.

(** C85, neighborhoods with the CUDA operations: two grids and two searches, each
    under any schedule. *)
Lemma C85_neighbors_cuda_partial_proof :
  forall active pactive bactive warp time1 time2 eps D r1 r2 rows ids pin crows cids pout,
    device_ok active pactive bactive warp ->
    cuda_workable (scan_limit active warp) eps D r1 rows ids pin crows cids pout ->
    cuda_workable (scan_limit active warp) eps D r2 rows ids pin crows cids pout -> (r1 <= r2)%Q ->
    let search := fun time r P =>
      mk_grid_gpu (active KKeys) warp eps pin (repeat r D) (fun g => neighborhood_gpu active warp time g (repeat r D) (Some pout) 0 P) in
    search time1 r1 (fun n1 => search time2 r2 (fun n2 =>
      NoDup (norig n1) /\ NoDup (norig n2) /\ incl (norig n1) (norig n2) /\ length (norig n1) <= length (norig n2))).
Proof.
  intros active pactive bactive warp time1 time2 eps D r1 r2 rows ids pin crows cids pout Hd W1 W2 Hr search.
  apply (cuda_grid_nbh active pactive bactive warp time1 eps Hd D r1 rows ids pin crows cids pout W1). intros B1 g1 n1 _ _ C1 _.
  apply (cuda_grid_nbh active pactive bactive warp time2 eps Hd D r2 rows ids pin crows cids pout W2). intros B2 g2 n2 _ _ C2 _.
  destruct (cn_pairs _ _ _ _ _ _ _ _ _ C1) as [D1 I1 _ _], (cn_pairs _ _ _ _ _ _ _ _ _ C2) as [D2 I2 _ _].
  assert (X : incl (norig n1) (norig n2)).
  { intros [j i] Hi. apply I2. apply I1 in Hi. destruct Hi as (A1 & A2 & A3 & A4). split; [exact A1|]. split; [exact A2|]. split; [exact A3|].
    eapply Qlt_le_trans; [exact A4|]. apply square_le; [|exact Hr]. apply Qlt_le_weak, (cw_radius _ _ _ _ _ _ _ _ _ _ W1). }
  split; [exact D1|]. split; [exact D2|]. split; [exact X|]. now apply NoDup_incl_length.
Qed.

(** C85, max pooling with the CUDA operations: two calls, each under any schedule. *)
Lemma C85_pooling_cuda_partial_proof :
  forall active pactive bactive warp time1 time2 eps D r1 r2 rows ids pin crows cids pout feats C F,
    device_ok active pactive bactive warp ->
    cuda_workable (scan_limit active warp) eps D r1 rows ids pin crows cids pout ->
    cuda_workable (scan_limit active warp) eps D r2 rows ids pin crows cids pout -> (r1 <= r2)%Q ->
    given feats pin C F -> not_above (length ids) C F F ->
    let largest := fun time r => max_pooling_gpu active warp time eps feats pin pout (Some [r]) false false in
    largest time1 r1 (fun o1 => largest time2 r2 (fun o2 =>
      outputs_below pout false false (length cids) C (fun _ => True) (Ok o1) (Ok o2))).
Proof.
  intros active pactive bactive warp time1 time2 eps D r1 r2 rows ids pin crows cids pout feats C F Hd W1 W2 Hr G HA largest.
  assert (HM : forall r i c, c < C -> near_points D r rows ids crows cids i <> [] ->
    is_max (map (fun j => fval F j c) (near_points D r rows ids crows cids i)) (red_max (map (fun j => fval F j c) (near_points D r rows ids crows cids i)))).
  { intros r i c Hc Hne. apply red_max_ok; [intros E; apply map_eq_nil in E; auto|]. apply Forall_map, Forall_forall. intros j Hj.
    apply (HA j c); [eapply near_lt, Hj|exact Hc]. }
  eapply (local_pooling_runs active pactive bactive warp time1 eps); [exact Hd|exact W1|now left|exact G|exact red_max_perm|reflexivity|].
  eapply (local_pooling_runs active pactive bactive warp time2 eps); [exact Hd|exact W2|now left|exact G|exact red_max_perm|reflexivity|].
  apply below_ok. intros i c Hi Hc _.
  pose proof (near_points_mono D r1 r2 rows ids crows cids i (Qlt_le_weak _ _ (cw_radius _ _ _ _ _ _ _ _ _ _ W1)) Hr) as HI.
  pose proof (HM r1 i c Hc) as P1. pose proof (HM r2 i c Hc) as P2.
  assert (L : forall j, In j (near_points D r2 rows ids crows cids i) -> (- Q2R flt_max <= fval F j c)%R).
  { intros j Hj. apply (HA j c); [eapply near_lt, Hj|exact Hc]. }
  destruct (near_points D r2 rows ids crows cids i) as [|y k] eqn:E2.
  - apply incl_l_nil in HI. rewrite HI. apply Rle_refl.
  - destruct (P2 ltac:(discriminate)) as [B2 A2]. rewrite Forall_forall in A2.
    destruct (near_points D r1 rows ids crows cids i) as [|x l] eqn:E1.
    + apply in_map_iff in B2 as (j & <- & Hj). apply L, Hj.
    + destruct (P1 ltac:(discriminate)) as [B1 _]. apply in_map_iff in B1 as (j & <- & Hj). apply A2. apply in_map_iff. exists j. split; [reflexivity|]. now apply HI.
Qed.

(** * Concrete cases *)
Lemma ex85_small : cuda_workable (scan_limit ex55_active 32) (1#1000) 2 (1#4) exN_rows exN_ids (seg 2 exN_rows exN_ids 2) exN_rows exN_ids (seg 2 exN_rows exN_ids 2).
Proof. destruct ex55_workable. constructor; try assumption; left; lia. Qed.
Example C85_pooling_cuda_partial_ex_proof :
  device_ok ex55_active 3 5 32 /\
  cuda_workable (scan_limit ex55_active 32) (1#1000) 2 (1#4) exN_rows exN_ids (seg 2 exN_rows exN_ids 2) exN_rows exN_ids (seg 2 exN_rows exN_ids 2) /\
  cuda_workable (scan_limit ex55_active 32) (1#1000) 2 1 exN_rows exN_ids (seg 2 exN_rows exN_ids 2) exN_rows exN_ids (seg 2 exN_rows exN_ids 2) /\
  given (Feat 2 (inr exN_F)) (seg 2 exN_rows exN_ids 2) 2 exN_F /\ not_above (length exN_ids) 2 exN_F exN_F.
Proof. split; [exact ex55_device|]. split; [exact ex85_small|]. split; [exact ex55_workable|]. split; [exact exN_given|exact exN_not_above]. Qed.
Example C85_neighbors_cuda_partial_ex_proof :
  device_ok ex55_active 3 5 32 /\
  cuda_workable (scan_limit ex55_active 32) (1#1000) 2 (1#4) exN_rows exN_ids (seg 2 exN_rows exN_ids 2) exN_rows exN_ids (seg 2 exN_rows exN_ids 2) /\
  cuda_workable (scan_limit ex55_active 32) (1#1000) 2 1 exN_rows exN_ids (seg 2 exN_rows exN_ids 2) exN_rows exN_ids (seg 2 exN_rows exN_ids 2) /\
  near 2 1 exN_rows exN_ids exN_rows exN_ids 0 1 /\ ~ near 2 (1#4) exN_rows exN_ids exN_rows exN_ids 0 1.
Proof.
  split; [exact ex55_device|]. split; [exact ex85_small|]. split; [exact ex55_workable|].
  split; [repeat split; cbn; lia|]. intros (_ & _ & _ & H). vm_compute in H. discriminate.
Qed.
