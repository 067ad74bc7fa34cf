(** Proofs that the layers with the CUDA operations turn sums of features into sums
    of outputs (C83). The statements are copied into PropertiesLinearCuda.v. *)
From Coq Require Import String List Arith ZArith NArith QArith Reals Qreals Lia Lra Bool Permutation.
From Verif Require Import GpuBasis GpuPdf Cuda GpuGrid Tensor TensorFacts Spec SpecText TextFacts PointCloud SpecCloud PointCloudFacts QFacts Grid SpecGrid GridFacts
  Neighbors SpecNeighbors NeighborFacts NeighborProofs Neighborhood NeighborhoodFacts NeighborhoodProofs
  Sampling SpecSampling SamplingFacts SamplingProofs Hierarchy SpecHierarchy HierarchyFacts Pdf SpecPdf PdfFacts PdfProofs
  RTensor RTensorFacts Layers SpecLayers LayerFacts LayerLink LayerProofs ConvProofs MoveProofs BlockFacts
  SpecMatch MatchFacts SpecLayerMatch GpuPdfProofs CudaLayers SpecCudaLayers CudaLayerProofs LayerMatchProofs SpecLinear LinearProofs.
Import ListNotations.
Local Open Scope nat_scope.

Lemma superposed_ok p n C a b e f1 f2 f :
  (forall i o, i < n -> o < C -> f i o = (a * f1 i o + b * f2 i o + e o)%R) ->
  superposed p false false n C a b e (Ok (Feat C (inr (table n C f1)))) (Ok (Feat C (inr (table n C f2)))) (Ok (Feat C (inr (table n C f)))).
Proof. exact (superposed_tables p false false n C a b e f1 f2 f). Qed.

(** C83 with the CUDA operations: three calls on a device, each under
    any schedule. *)
Lemma C83_superposition_cuda_partial_proof :
  forall active pactive bactive warp time1 time2 time eps D r rows ids pin crows cids pout cin a b feats1 feats2 feats F1 F2 F,
    device_ok active pactive bactive warp ->
    cuda_workable (scan_limit active warp) eps D r rows ids pin crows cids pout ->
    given feats1 pin cin F1 -> given feats2 pin cin F2 -> given feats pin cin F -> combined (length ids) cin a b F1 F2 F ->
    let sums := fun C o1 o2 o => superposed pout false false (length cids) C a b (fun _ => 0%R) (Ok o1) (Ok o2) (Ok o) in
    (forall cout mlps sizes act f w bs fw layer bandwidth,
       length ids <= scan_limit active warp ->
       mk_mcconv cin cout D mlps sizes act w bs fw = Ok layer -> 0 < cout -> activation act f -> (0 < bandwidth)%R ->
       SpecGpuBasis.supported (last sizes 0 * mlps) cin ->
       let call := fun time x => mcconv_gpu active pactive bactive warp time eps layer x pin pout r None bandwidth false false in
       call time1 feats1 (fun o1 => call time2 feats2 (fun o2 => call time feats (fun o => sums cout o1 o2 o)))) /\
    (forall cout K interpolation wt kernel_points w wo spherical layer influence,
       mk_kpconv cin cout K D false interpolation
         (Some (ttab [K; D] (fun idx => match idx with [k; d] => kernel_points k d | _ => 0%R end))) spherical w wo = Ok layer ->
       0 < cin /\ (cin < 8 \/ cin mod 8 = 0) -> 0 < K <= 64 -> weighting interpolation wt ->
       let call := fun time x => kpconv_gpu active bactive warp time eps layer x pin pout r None influence false false in
       call time1 feats1 (fun o1 _ => call time2 feats2 (fun o2 _ => call time feats (fun o _ => sums cout o1 o2 o)))) /\
    (forall cout hidden act f axis bias w w1 b1 w2 b2 bandwidth,
       length ids <= scan_limit active warp -> SpecGpuBasis.supported hidden cin -> activation act f -> (0 < bandwidth)%R ->
       let call := fun time x => pointconv_gpu active pactive bactive warp time eps (mk_pointconv cin cout D hidden act axis bias w w1 b1 w2 b2)
                                   x pin pout r None bandwidth false false in
       call time1 feats1 (fun o1 => call time2 feats2 (fun o2 => call time feats (fun o => sums cout o1 o2 o)))) /\
    (let call := fun time x => average_pooling_gpu active warp time eps x pin pout (Some [r]) false false in
     call time1 feats1 (fun o1 => call time2 feats2 (fun o2 => call time feats (fun o => sums cin o1 o2 o)))).
Proof.
  intros active pactive bactive warp time1 time2 time eps D r rows ids pin crows cids pout cin a b feats1 feats2 feats F1 F2 F Hd W G1 G2 G E sums.
  split; [|split; [|split]].
  - intros cout mlps sizes act f w bs fw layer bw Hn El Hc Ha Hb Hs call. unfold call.
    eapply (mcconv_runs active pactive bactive warp time1 eps); [exact Hd|exact W|exact Hn|exact El|exact Hc|exact Ha|exact Hs|exact G1|exact Hb|reflexivity|].
    eapply (mcconv_runs active pactive bactive warp time2 eps); [exact Hd|exact W|exact Hn|exact El|exact Hc|exact Ha|exact Hs|exact G2|exact Hb|reflexivity|].
    eapply (mcconv_runs active pactive bactive warp time eps); [exact Hd|exact W|exact Hn|exact El|exact Hc|exact Ha|exact Hs|exact G|exact Hb|reflexivity|].
    apply superposed_ok. intros i o Hi Ho. rewrite Rplus_0_r. unfold mc_formula.
    rewrite (conv_linear a b D r rows ids crows cids i cin _ _ F1 F2 F _ E). unfold Rdiv. ring.
  - intros cout K interp wt kp w wo sph layer infl El Hc HK Hw call. unfold call.
    eapply (kpconv_runs active pactive bactive warp time1 eps); [exact Hd|exact W|exact El|exact Hc|exact HK|exact Hw|exact G1|reflexivity|]. intros st1 _.
    eapply (kpconv_runs active pactive bactive warp time2 eps); [exact Hd|exact W|exact El|exact Hc|exact HK|exact Hw|exact G2|reflexivity|]. intros st2 _.
    eapply (kpconv_runs active pactive bactive warp time eps); [exact Hd|exact W|exact El|exact Hc|exact HK|exact Hw|exact G|reflexivity|]. intros st _.
    apply superposed_ok. intros i o Hi Ho. rewrite Rplus_0_r. cbv zeta. unfold kp_formula.
    exact (conv_linear a b D r rows ids crows cids i cin _ _ F1 F2 F _ E).
  - intros cout hidden act f axis bias w w1 b1 w2 b2 bw Hn Hs Ha Hb call. unfold call.
    eapply (pointconv_runs active pactive bactive warp time1 eps D r rows ids pin crows cids pout cin cout hidden act f axis bias w w1 b1 w2 b2 feats1 F1 bw
      (top D r rows ids crows cids bw)); [exact Hd|exact W|exact Hn|exact Hs|exact Ha|exact G1|exact Hb| |reflexivity|].
    { intros i _ Hne. apply top_ok; auto; apply W. }
    eapply (pointconv_runs active pactive bactive warp time2 eps D r rows ids pin crows cids pout cin cout hidden act f axis bias w w1 b1 w2 b2 feats2 F2 bw
      (top D r rows ids crows cids bw)); [exact Hd|exact W|exact Hn|exact Hs|exact Ha|exact G2|exact Hb| |reflexivity|].
    { intros i _ Hne. apply top_ok; auto; apply W. }
    eapply (pointconv_runs active pactive bactive warp time eps D r rows ids pin crows cids pout cin cout hidden act f axis bias w w1 b1 w2 b2 feats F bw
      (top D r rows ids crows cids bw)); [exact Hd|exact W|exact Hn|exact Hs|exact Ha|exact G|exact Hb| |reflexivity|].
    { intros i _ Hne. apply top_ok; auto; apply W. }
    apply superposed_ok. intros i o Hi Ho. rewrite Rplus_0_r. unfold pt_formula.
    exact (conv_linear a b D r rows ids crows cids i cin _ _ F1 F2 F _ E).
  - intros call. unfold call.
    eapply (local_pooling_runs active pactive bactive warp time1 eps); [exact Hd|exact W|left; reflexivity|exact G1|exact red_mean_perm|reflexivity|].
    eapply (local_pooling_runs active pactive bactive warp time2 eps); [exact Hd|exact W|left; reflexivity|exact G2|exact red_mean_perm|reflexivity|].
    eapply (local_pooling_runs active pactive bactive warp time eps); [exact Hd|exact W|left; reflexivity|exact G|exact red_mean_perm|reflexivity|].
    apply superposed_ok. intros i c Hi Hc. rewrite Rplus_0_r.
    rewrite (map_ext_in (fun j => fval F j c) (fun j => a * fval F1 j c + b * fval F2 j c)%R)
      by (intros j Hj; apply E; eauto using near_lt).
    pose proof (mean_linear a b (near_points D r rows ids crows cids i) (fun j => fval F1 j c) (fun j => fval F2 j c)) as M.
    destruct (near_points D r rows ids crows cids i) as [|j l]; [unfold red_mean; cbn; lra|rewrite !red_mean_ok by discriminate; exact M].
Qed.

(** * A concrete case *)
Example C83_superposition_cuda_partial_ex_proof :
  device_ok ex55_active 3 5 32 /\
  cuda_workable (scan_limit ex55_active 32) (1#1000) 2 1 exN_rows exN_ids (seg 2 exN_rows exN_ids 2) exN_rows exN_ids (seg 2 exN_rows exN_ids 2) /\
  length exN_ids <= scan_limit ex55_active 32 /\ SpecGpuBasis.supported (last [3;8] 0 * 2) 2 /\
  given (Feat 2 (inr exN_F)) (seg 2 exN_rows exN_ids 2) 2 exN_F /\
  given (Feat 2 (inr exL_swap)) (seg 2 exN_rows exN_ids 2) 2 exL_swap /\
  given (Feat 2 (inr exL_F)) (seg 2 exN_rows exN_ids 2) 2 exL_F /\
  combined (length exN_ids) 2 2 (-1) exN_F exL_swap exL_F.
Proof.
  destruct C55_mcconv_partial_ex_proof as (layer & H1 & H2 & H3 & _ & _ & H4 & _).
  destruct C83_superposition_partial_ex_proof as (_ & G1 & G2 & G & E & _).
  do 7 (split; [assumption|]). exact E.
Qed.
