(** Proofs that pooling with the CUDA operations keeps comparisons of features (C84).
    The statements are copied into PropertiesMonotoneCuda.v. *)
From Coq Require Import String List Arith ZArith NArith QArith Reals Qreals Lia Lra Bool Permutation.
From Verif Require Import GpuBasis GpuPdf Cuda GpuGrid Tensor TensorFacts Spec SpecText TextFacts PointCloud SpecCloud PointCloudFacts QFacts Grid SpecGrid GridFacts
  Neighbors SpecNeighbors NeighborFacts NeighborProofs Neighborhood NeighborhoodFacts NeighborhoodProofs
  Sampling SpecSampling SamplingFacts SamplingProofs Hierarchy SpecHierarchy HierarchyFacts Pdf SpecPdf PdfFacts PdfProofs
  RTensor RTensorFacts Layers SpecLayers LayerFacts LayerLink LayerProofs ConvProofs MoveProofs BlockFacts
  CudaLayers SpecCudaLayers CudaLayerProofs LinearProofs SpecMonotone MonotoneProofs.
Import ListNotations.
Local Open Scope nat_scope.

Lemma below_ok p n C (ok : nat -> Prop) f1 f2 :
  (forall i c, i < n -> c < C -> ok i -> (f1 i c <= f2 i c)%R) ->
  outputs_below p false false n C ok (Ok (Feat C (inr (table n C f1)))) (Ok (Feat C (inr (table n C f2)))).
Proof. exact (below_tables p false false n C ok f1 f2). Qed.

(** C84, local pooling with the CUDA operations: two calls, each under any
    schedule. *)
Lemma C84_local_cuda_partial_proof :
  forall active pactive bactive warp time1 time2 eps D r rows ids pin crows cids pout radii feats1 feats2 C F1 F2,
    device_ok active pactive bactive warp ->
    cuda_workable (scan_limit active warp) eps D r rows ids pin crows cids pout -> radii = [r] \/ radii = repeat r D ->
    given feats1 pin C F1 -> given feats2 pin C F2 -> not_above (length ids) C F1 F2 ->
    let largest := fun time x => max_pooling_gpu active warp time eps x pin pout (Some radii) false false in
    let average := fun time x => average_pooling_gpu active warp time eps x pin pout (Some radii) false false in
    let below := fun ok o1 o2 => outputs_below pout false false (length cids) C ok (Ok o1) (Ok o2) in
    largest time1 feats1 (fun o1 => largest time2 feats2 (fun o2 => below (fun _ => True) o1 o2)) /\
    average time1 feats1 (fun o1 => average time2 feats2 (fun o2 => below (fun _ => True) o1 o2)) /\
    average time1 feats1 (fun o1 => largest time2 feats1 (fun o2 => below (fun i => near_points D r rows ids crows cids i <> []) o1 o2)).
Proof.
  intros active pactive bactive warp time1 time2 eps D r rows ids pin crows cids pout radii feats1 feats2 C F1 F2 Hd W Hr G1 G2 HA largest average below.
  assert (HL : forall i c j, c < C -> In j (near_points D r rows ids crows cids i) -> (- Q2R flt_max <= fval F1 j c <= fval F2 j c)%R).
  { intros i c j Hc Hj. apply HA; [eapply near_lt, Hj|exact Hc]. }
  assert (HM : forall F i c, c < C -> near_points D r rows ids crows cids i <> [] ->
    (forall j, In j (near_points D r rows ids crows cids i) -> - Q2R flt_max <= fval F j c)%R ->
    is_max (map (fun j => fval F j c) (near_points D r rows ids crows cids i)) (red_max (map (fun j => fval F j c) (near_points D r rows ids crows cids i)))).
  { intros F i c Hc Hne H. apply red_max_ok; [intros E; apply map_eq_nil in E; auto|]. apply Forall_map, Forall_forall. exact H. }
  split; [|split].
  - eapply (local_pooling_runs active pactive bactive warp time1 eps); [exact Hd|exact W|exact Hr|exact G1|exact red_max_perm|reflexivity|].
    eapply (local_pooling_runs active pactive bactive warp time2 eps); [exact Hd|exact W|exact Hr|exact G2|exact red_max_perm|reflexivity|].
    apply below_ok. intros i c Hi Hc _.
    assert (D0 : near_points D r rows ids crows cids i = [] \/ near_points D r rows ids crows cids i <> []) by (destruct (near_points D r rows ids crows cids i); [now left|right; discriminate]).
    destruct D0 as [E|E]; [rewrite E; apply Rle_refl|].
    eapply max_mono; [|apply (HM F1 i c Hc E)|apply (HM F2 i c Hc E)]; intros j Hj; pose proof (HL i c j Hc Hj); lra.
  - eapply (local_pooling_runs active pactive bactive warp time1 eps); [exact Hd|exact W|exact Hr|exact G1|exact red_mean_perm|reflexivity|].
    eapply (local_pooling_runs active pactive bactive warp time2 eps); [exact Hd|exact W|exact Hr|exact G2|exact red_mean_perm|reflexivity|].
    apply below_ok. intros i c Hi Hc _.
    assert (D0 : near_points D r rows ids crows cids i = [] \/ near_points D r rows ids crows cids i <> []) by (destruct (near_points D r rows ids crows cids i); [now left|right; discriminate]).
    destruct D0 as [E|E]; [rewrite E; apply Rle_refl|].
    rewrite !red_mean_ok by (intros E0; apply map_eq_nil in E0; auto). apply mean_mono. intros j Hj; pose proof (HL i c j Hc Hj); lra.
  - eapply (local_pooling_runs active pactive bactive warp time1 eps); [exact Hd|exact W|exact Hr|exact G1|exact red_mean_perm|reflexivity|].
    eapply (local_pooling_runs active pactive bactive warp time2 eps); [exact Hd|exact W|exact Hr|exact G1|exact red_max_perm|reflexivity|].
    apply below_ok. intros i c Hi Hc E.
    rewrite red_mean_ok by (intros E0; apply map_eq_nil in E0; auto). apply mean_le_max; [exact E|]. apply (HM F1 i c Hc E). intros j Hj; pose proof (HL i c j Hc Hj); lra.
Qed.

(** * A concrete case *)
Example C84_local_cuda_partial_ex_proof :
  device_ok ex55_active 3 5 32 /\
  cuda_workable (scan_limit ex55_active 32) (1#1000) 2 1 exN_rows exN_ids (seg 2 exN_rows exN_ids 2) exN_rows exN_ids (seg 2 exN_rows exN_ids 2) /\
  given (Feat 2 (inr exN_F)) (seg 2 exN_rows exN_ids 2) 2 exN_F /\ given (Feat 2 (inr exP_F)) (seg 2 exN_rows exN_ids 2) 2 exP_F /\
  not_above (length exN_ids) 2 exN_F exP_F.
Proof.
  destruct C55_mcconv_partial_ex_proof as (layer & H1 & H2 & _). destruct C84_local_partial_ex_proof as (_ & H3 & H4 & H5 & _).
  do 4 (split; [assumption|]). exact H5.
Qed.
