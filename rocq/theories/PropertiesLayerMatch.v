(** The features of a cloud in two batches (C68)
    Generated by tools/gen_props.py from LayerMatchProofs.v: statements only. *)
From Coq Require Import String List Arith ZArith NArith QArith Reals Qreals Lia Lra Bool Permutation.
From Verif Require Import GpuBasis GpuPdf Cuda GpuGrid Tensor TensorFacts Spec SpecText TextFacts PointCloud SpecCloud PointCloudFacts QFacts Grid SpecGrid GridFacts
  Neighbors SpecNeighbors NeighborFacts NeighborProofs Neighborhood NeighborhoodFacts NeighborhoodProofs
  Sampling SpecSampling SamplingFacts SamplingProofs Hierarchy SpecHierarchy HierarchyFacts Pdf SpecPdf PdfFacts PdfProofs
  RTensor RTensorFacts Layers SpecLayers LayerFacts LayerLink LayerProofs ConvProofs MoveProofs BlockFacts
  SpecMatch MatchFacts SpecLayerMatch GpuPdfProofs CudaLayers SpecCudaLayers CudaLayerProofs.
From Verif Require Import LayerMatchProofs.
Import ListNotations.
Local Open Scope nat_scope.

(** C68. Two calls of a layer with the CUDA operations, on two devices, with any
    interleavings of the threads and with two batches: if element [e] of the
    first batch and element [e2] of the second are the same cloud with the same
    features and the same output points up to the order of the points and a
    translation, then paired output points have the same output features. *)
Theorem C68_cuda :
  forall active pactive bactive warp time active2 pactive2 bactive2 warp2 time2 eps eps2 D r t e e2
         rows ids pin crows cids pout rows2 ids2 pin2 crows2 cids2 pout2 ps qs feats feats2 cin F F2,
    device_ok active pactive bactive warp -> device_ok active2 pactive2 bactive2 warp2 ->
    cuda_workable (scan_limit active warp) eps D r rows ids pin crows cids pout ->
    cuda_workable (scan_limit active2 warp2) eps2 D r rows2 ids2 pin2 crows2 cids2 pout2 ->
    given feats pin cin F -> given feats2 pin2 cin F2 ->
    matched D t e (rows, ids) e2 (rows2, ids2) ps -> matched D t e (crows, cids) e2 (crows2, cids2) qs -> rows_match ps F F2 ->
    let agree := fun cout => outputs_match cout (length cids) (length cids2) qs in
    (forall cout mlps sizes act a w b fw layer bandwidth,
       length ids <= scan_limit active warp -> length ids2 <= scan_limit active2 warp2 ->
       mk_mcconv cin cout D mlps sizes act w b fw = Ok layer -> 0 < cout -> activation act a -> (0 < bandwidth)%R ->
       SpecGpuBasis.supported (last sizes 0 * mlps) cin ->
       mcconv_gpu active pactive bactive warp time eps layer feats pin pout r None bandwidth false false (fun o =>
         mcconv_gpu active2 pactive2 bactive2 warp2 time2 eps2 layer feats2 pin2 pout2 r None bandwidth false false (fun o2 => agree cout o o2))) /\
    (forall cout K deformable interpolation wt kernel_points w wo spherical layer influence,
       mk_kpconv cin cout K D deformable interpolation
         (Some (ttab [K; D] (fun idx => match idx with [k; d] => kernel_points k d | _ => 0%R end))) spherical w wo = Ok layer ->
       0 < cin /\ (cin < 8 \/ cin mod 8 = 0) -> 0 < K <= 64 -> weighting interpolation wt ->
       kpconv_gpu active bactive warp time eps layer feats pin pout r None influence false false (fun o _ =>
         kpconv_gpu active2 bactive2 warp2 time2 eps2 layer feats2 pin2 pout2 r None influence false false (fun o2 _ => agree cout o o2))) /\
    (forall cout hidden act a axis bias w w1 b1 w2 b2 bandwidth,
       length ids <= scan_limit active warp -> length ids2 <= scan_limit active2 warp2 ->
       SpecGpuBasis.supported hidden cin -> activation act a -> (0 < bandwidth)%R ->
       let layer := mk_pointconv cin cout D hidden act axis bias w w1 b1 w2 b2 in
       pointconv_gpu active pactive bactive warp time eps layer feats pin pout r None bandwidth false false (fun o =>
         pointconv_gpu active2 pactive2 bactive2 warp2 time2 eps2 layer feats2 pin2 pout2 r None bandwidth false false (fun o2 => agree cout o o2))) /\
    max_pooling_gpu active warp time eps feats pin pout (Some [r]) false false (fun o =>
      max_pooling_gpu active2 warp2 time2 eps2 feats2 pin2 pout2 (Some [r]) false false (fun o2 => agree cin o o2)) /\
    average_pooling_gpu active warp time eps feats pin pout (Some [r]) false false (fun o =>
      average_pooling_gpu active2 warp2 time2 eps2 feats2 pin2 pout2 (Some [r]) false false (fun o2 => agree cin o o2)).
Proof. exact C68_cuda_proof. Qed.
Print Assumptions C68_cuda.

(** C68, two calls with the pure TensorFlow fallback. PointConv needs two output
    points in each batch (C34). *)
Theorem C68_fallback :
  forall eps eps2 D r t e e2 rows ids pin crows cids pout rows2 ids2 pin2 crows2 cids2 pout2 ps qs feats feats2 cin F F2,
    workable eps D r rows ids pin crows cids pout -> workable eps2 D r rows2 ids2 pin2 crows2 cids2 pout2 ->
    given feats pin cin F -> given feats2 pin2 cin F2 ->
    matched D t e (rows, ids) e2 (rows2, ids2) ps -> matched D t e (crows, cids) e2 (crows2, cids2) qs -> rows_match ps F F2 ->
    let search := find_neighbors_tf GPU in let kde := compute_pdf_tf GPU in
    let agree := fun cout => outputs_match cout (length cids) (length cids2) qs in
    (forall cout mlps sizes act a w b fw layer bandwidth,
       mk_mcconv cin cout D mlps sizes act w b fw = Ok layer -> 0 < cout -> activation act a -> (0 < bandwidth)%R ->
       exists o o2,
         mcconv_call GPU eps search kde layer feats pin pout r None bandwidth false false = Ok o /\
         mcconv_call GPU eps2 search kde layer feats2 pin2 pout2 r None bandwidth false false = Ok o2 /\ agree cout o o2) /\
    (forall cout K deformable interpolation wt kernel_points w wo spherical layer influence,
       mk_kpconv cin cout K D deformable interpolation
         (Some (ttab [K; D] (fun idx => match idx with [k; d] => kernel_points k d | _ => 0%R end))) spherical w wo = Ok layer ->
       0 < cin -> 0 < K -> weighting interpolation wt ->
       exists o o2 state state2,
         kpconv_call GPU eps search layer feats pin pout r None influence false false = Ok (o, state) /\
         kpconv_call GPU eps2 search layer feats2 pin2 pout2 r None influence false false = Ok (o2, state2) /\ agree cout o o2) /\
    (forall cout hidden act a axis bias w w1 b1 w2 b2 bandwidth,
       2 <= length cids -> 2 <= length cids2 -> 0 < cin -> 0 < hidden -> activation act a -> (0 < bandwidth)%R ->
       let layer := mk_pointconv cin cout D hidden act axis bias w w1 b1 w2 b2 in
       exists o o2,
         pointconv_call GPU eps search kde layer feats pin pout r None bandwidth false false = Ok o /\
         pointconv_call GPU eps2 search kde layer feats2 pin2 pout2 r None bandwidth false false = Ok o2 /\ agree cout o o2) /\
    (exists o o2,
       max_pooling GPU eps search feats pin pout (Some [r]) false false = Ok o /\
       max_pooling GPU eps2 search feats2 pin2 pout2 (Some [r]) false false = Ok o2 /\ agree cin o o2) /\
    (exists o o2,
       average_pooling GPU eps search feats pin pout (Some [r]) false false = Ok o /\
       average_pooling GPU eps2 search feats2 pin2 pout2 (Some [r]) false false = Ok o2 /\ agree cin o o2).
Proof. exact C68_fallback_proof. Qed.
Print Assumptions C68_fallback.

(** C68, a call with the CUDA operations and one with the fallback. For MCConv
    the features with the CUDA operations, multiplied by a number that differs
    from 1 by at most 1e-8, are those of the fallback. *)
Theorem C68_mixed :
  forall active pactive bactive warp time eps eps2 D r t e e2
         rows ids pin crows cids pout rows2 ids2 pin2 crows2 cids2 pout2 ps qs feats feats2 cin F F2,
    device_ok active pactive bactive warp ->
    cuda_workable (scan_limit active warp) eps D r rows ids pin crows cids pout ->
    workable eps2 D r rows2 ids2 pin2 crows2 cids2 pout2 ->
    given feats pin cin F -> given feats2 pin2 cin F2 ->
    matched D t e (rows, ids) e2 (rows2, ids2) ps -> matched D t e (crows, cids) e2 (crows2, cids2) qs -> rows_match ps F F2 ->
    let search := find_neighbors_tf GPU in let kde := compute_pdf_tf GPU in
    let agree := fun cout => outputs_match cout (length cids) (length cids2) qs in
    (exists factor, (1 - 1 / 100000000 <= factor <= 1)%R /\
     forall cout mlps sizes act a w b fw layer bandwidth,
       length ids <= scan_limit active warp ->
       mk_mcconv cin cout D mlps sizes act w b fw = Ok layer -> 0 < cout -> activation act a -> (0 < bandwidth)%R ->
       SpecGpuBasis.supported (last sizes 0 * mlps) cin ->
       exists o2, mcconv_call GPU eps2 search kde layer feats2 pin2 pout2 r None bandwidth false false = Ok o2 /\
       mcconv_gpu active pactive bactive warp time eps layer feats pin pout r None bandwidth false false (fun o =>
         outputs_scaled factor cout (length cids) (length cids2) qs o o2)) /\
    (forall cout K deformable interpolation wt kernel_points w wo spherical layer influence,
       mk_kpconv cin cout K D deformable interpolation
         (Some (ttab [K; D] (fun idx => match idx with [k; d] => kernel_points k d | _ => 0%R end))) spherical w wo = Ok layer ->
       0 < cin /\ (cin < 8 \/ cin mod 8 = 0) -> 0 < K <= 64 -> weighting interpolation wt ->
       exists o2 state2, kpconv_call GPU eps2 search layer feats2 pin2 pout2 r None influence false false = Ok (o2, state2) /\
       kpconv_gpu active bactive warp time eps layer feats pin pout r None influence false false (fun o _ => agree cout o o2)) /\
    (forall cout hidden act a axis bias w w1 b1 w2 b2 bandwidth,
       length ids <= scan_limit active warp -> 2 <= length cids2 ->
       SpecGpuBasis.supported hidden cin -> activation act a -> (0 < bandwidth)%R ->
       let layer := mk_pointconv cin cout D hidden act axis bias w w1 b1 w2 b2 in
       exists o2, pointconv_call GPU eps2 search kde layer feats2 pin2 pout2 r None bandwidth false false = Ok o2 /\
       pointconv_gpu active pactive bactive warp time eps layer feats pin pout r None bandwidth false false (fun o => agree cout o o2)) /\
    (exists o2, max_pooling GPU eps2 search feats2 pin2 pout2 (Some [r]) false false = Ok o2 /\
       max_pooling_gpu active warp time eps feats pin pout (Some [r]) false false (fun o => agree cin o o2)) /\
    (exists o2, average_pooling GPU eps2 search feats2 pin2 pout2 (Some [r]) false false = Ok o2 /\
       average_pooling_gpu active warp time eps feats pin pout (Some [r]) false false (fun o => agree cin o o2)).
Proof. exact C68_mixed_proof. Qed.
Print Assumptions C68_mixed.

(** On these two devices MCConv with the CUDA operations runs on both batches and
    gives paired points the same features. *)
Example C68_cuda_ex :
  (device_ok ex55_active 3 5 32 /\ device_ok exY_active 1 4 16) /\
  cuda_workable (scan_limit ex55_active 32) (1#1000) 2 1 exN_rows exN_ids (seg 2 exN_rows exN_ids 2) exN_rows exN_ids (seg 2 exN_rows exN_ids 2) /\
  cuda_workable (scan_limit exY_active 16) (1#1000) 2 1 exY_rows exY_ids (seg 2 exY_rows exY_ids 2) exY_rows exY_ids (seg 2 exY_rows exY_ids 2) /\
  given (Feat 2 (inr exN_F)) (seg 2 exN_rows exN_ids 2) 2 exN_F /\ given (Feat 2 (inr exY_F)) (seg 2 exY_rows exY_ids 2) 2 exY_F /\
  matched 2 exY_move 1 (exN_rows, exN_ids) 0 (exY_rows, exY_ids) exY_pairs /\ rows_match exY_pairs exN_F exY_F /\
  exists layer,
    mk_mcconv 2 4 2 2 [3;8] "ReLU" (fun k idx => INR (k + hd 0 idx)) (fun _ _ => 0%R) (fun idx => INR (hd 0 idx)) = Ok layer /\
    forall time time2,
      mcconv_gpu ex55_active 3 5 32 time (1#1000) layer (Feat 2 (inr exN_F)) (seg 2 exN_rows exN_ids 2) (seg 2 exN_rows exN_ids 2) 1 None (1/5) false false (fun o =>
      mcconv_gpu exY_active 1 4 16 time2 (1#1000) layer (Feat 2 (inr exY_F)) (seg 2 exY_rows exY_ids 2) (seg 2 exY_rows exY_ids 2) 1 None (1/5) false false (fun o2 =>
      exists T T2, o = Feat 4 (inr T) /\ o2 = Feat 4 (inr T2) /\ length T = 6 /\ length T2 = 3 /\
        nth 4 T [] = nth 2 T2 [] /\ nth 5 T [] = nth 0 T2 [])).
Proof. exact C68_cuda_ex_proof. Qed.

Example C68_fallback_ex :
  workable (1#1000) 2 1 exN_rows exN_ids (seg 2 exN_rows exN_ids 2) exN_rows exN_ids (seg 2 exN_rows exN_ids 2) /\
  workable (1#1000) 2 1 exY_rows exY_ids (seg 2 exY_rows exY_ids 2) exY_rows exY_ids (seg 2 exY_rows exY_ids 2) /\
  given (Feat 2 (inr exN_F)) (seg 2 exN_rows exN_ids 2) 2 exN_F /\ given (Feat 2 (inr exY_F)) (seg 2 exY_rows exY_ids 2) 2 exY_F /\
  matched 2 exY_move 1 (exN_rows, exN_ids) 0 (exY_rows, exY_ids) exY_pairs /\ rows_match exY_pairs exN_F exY_F /\
  near_points 2 1 exN_rows exN_ids exN_rows exN_ids 4 = [4;5] /\ near_points 2 1 exY_rows exY_ids exY_rows exY_ids 2 = [0;2].
Proof. exact C68_fallback_ex_proof. Qed.

Example C68_mixed_ex :
  device_ok ex55_active 3 5 32 /\
  cuda_workable (scan_limit ex55_active 32) (1#1000) 2 1 exN_rows exN_ids (seg 2 exN_rows exN_ids 2) exN_rows exN_ids (seg 2 exN_rows exN_ids 2) /\
  workable (1#1000) 2 1 exY_rows exY_ids (seg 2 exY_rows exY_ids 2) exY_rows exY_ids (seg 2 exY_rows exY_ids 2) /\
  given (Feat 2 (inr exN_F)) (seg 2 exN_rows exN_ids 2) 2 exN_F /\ given (Feat 2 (inr exY_F)) (seg 2 exY_rows exY_ids 2) 2 exY_F /\
  matched 2 exY_move 1 (exN_rows, exN_ids) 0 (exY_rows, exY_ids) exY_pairs /\ rows_match exY_pairs exN_F exY_F /\
  forall time, exists T2,
    max_pooling GPU (1#1000) (find_neighbors_tf GPU) (Feat 2 (inr exY_F)) (seg 2 exY_rows exY_ids 2) (seg 2 exY_rows exY_ids 2) (Some [1#1]) false false = Ok (Feat 2 (inr T2)) /\
    max_pooling_gpu ex55_active 32 time (1#1000) (Feat 2 (inr exN_F)) (seg 2 exN_rows exN_ids 2) (seg 2 exN_rows exN_ids 2) (Some [1#1]) false false (fun o =>
      exists T, o = Feat 2 (inr T) /\ nth 4 T [] = nth 2 T2 [] /\ nth 5 T [] = nth 0 T2 []).
Proof. exact C68_mixed_ex_proof. Qed.
