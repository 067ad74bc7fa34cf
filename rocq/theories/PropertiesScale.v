(** Scaled and rotated clouds (C69)
    Generated by tools/gen_props.py from ScaleProofs.v: statements only. *)
From Coq Require Import String List Arith ZArith NArith QArith Reals Qreals Lia Lra Bool Permutation.
From Verif Require Import GpuBasis GpuPdf Cuda GpuGrid Tensor TensorFacts Spec SpecText TextFacts PointCloud SpecCloud PointCloudFacts QFacts Grid SpecGrid GridFacts
  Neighbors SpecNeighbors NeighborFacts NeighborProofs Neighborhood NeighborhoodFacts NeighborhoodProofs
  Sampling SpecSampling SamplingFacts SamplingProofs Hierarchy SpecHierarchy HierarchyFacts Pdf SpecPdf PdfFacts PdfProofs
  RTensor RTensorFacts Layers SpecLayers LayerFacts LayerLink LayerProofs ConvProofs MoveProofs BlockFacts
  SpecMatch MatchFacts SpecLayerMatch GpuPdfProofs CudaLayers SpecCudaLayers CudaLayerProofs LayerMatchProofs SpecScale ScaleFacts.
From Verif Require Import ScaleProofs.
Import ListNotations.
Local Open Scope nat_scope.

(** C69. A cloud (element [e] of a batch) multiplied by [s], with all radii and
    the influence distance multiplied by [s], reordered and translated: MCConv and
    KPConv give corresponding points the same features. With the fallback. *)
Theorem C69_scaled :
  forall eps eps2 D s r t e e2 rows ids pin crows cids pout rows2 ids2 pin2 crows2 cids2 pout2 ps qs feats feats2 cin F F2,
    (0 < s)%Q -> workable eps D r rows ids pin crows cids pout -> workable eps2 D (s * r) rows2 ids2 pin2 crows2 cids2 pout2 ->
    given feats pin cin F -> given feats2 pin2 cin F2 ->
    scaled D s t e (rows, ids) e2 (rows2, ids2) ps -> scaled D s t e (crows, cids) e2 (crows2, cids2) qs -> rows_match ps F F2 ->
    let search := find_neighbors_tf GPU in let kde := compute_pdf_tf GPU in
    let agree := fun cout => outputs_match cout (length cids) (length cids2) qs in
    (forall cout mlps sizes act a w b fw layer bandwidth,
       mk_mcconv cin cout D mlps sizes act w b fw = Ok layer -> 0 < cout -> activation act a -> (0 < bandwidth)%R ->
       exists o o2,
         mcconv_call GPU eps search kde layer feats pin pout r None bandwidth false false = Ok o /\
         mcconv_call GPU eps2 search kde layer feats2 pin2 pout2 (s * r) None bandwidth false false = Ok o2 /\ agree cout o o2) /\
    (forall cout K deformable interpolation wt kernel_points w wo spherical layer influence,
       mk_kpconv cin cout K D deformable interpolation
         (Some (ttab [K; D] (fun idx => match idx with [k; d] => kernel_points k d | _ => 0%R end))) spherical w wo = Ok layer ->
       0 < cin -> 0 < K -> weighting interpolation wt ->
       exists o o2 state state2,
         kpconv_call GPU eps search layer feats pin pout r None influence false false = Ok (o, state) /\
         kpconv_call GPU eps2 search layer feats2 pin2 pout2 (s * r) None (option_map (Rmult (Q2R s)) influence) false false = Ok (o2, state2) /\
         agree cout o o2).
Proof. exact C69_scaled_proof. Qed.
Print Assumptions C69_scaled.

(** C69, the same with the CUDA operations, for all devices and interleavings. *)
Theorem C69_scaled_cuda :
  forall active pactive bactive warp time active2 pactive2 bactive2 warp2 time2 eps eps2 D s r t e e2
         rows ids pin crows cids pout rows2 ids2 pin2 crows2 cids2 pout2 ps qs feats feats2 cin F F2,
    device_ok active pactive bactive warp -> device_ok active2 pactive2 bactive2 warp2 ->
    (0 < s)%Q -> cuda_workable (scan_limit active warp) eps D r rows ids pin crows cids pout ->
    cuda_workable (scan_limit active2 warp2) eps2 D (s * r) rows2 ids2 pin2 crows2 cids2 pout2 ->
    given feats pin cin F -> given feats2 pin2 cin F2 ->
    scaled D s t e (rows, ids) e2 (rows2, ids2) ps -> scaled D s t e (crows, cids) e2 (crows2, cids2) qs -> rows_match ps F F2 ->
    let agree := fun cout => outputs_match cout (length cids) (length cids2) qs in
    (forall cout mlps sizes act a w b fw layer bandwidth,
       length ids <= scan_limit active warp -> length ids2 <= scan_limit active2 warp2 ->
       mk_mcconv cin cout D mlps sizes act w b fw = Ok layer -> 0 < cout -> activation act a -> (0 < bandwidth)%R ->
       SpecGpuBasis.supported (last sizes 0 * mlps) cin ->
       mcconv_gpu active pactive bactive warp time eps layer feats pin pout r None bandwidth false false (fun o =>
         mcconv_gpu active2 pactive2 bactive2 warp2 time2 eps2 layer feats2 pin2 pout2 (s * r) None bandwidth false false (fun o2 => agree cout o o2))) /\
    (forall cout K deformable interpolation wt kernel_points w wo spherical layer influence,
       mk_kpconv cin cout K D deformable interpolation
         (Some (ttab [K; D] (fun idx => match idx with [k; d] => kernel_points k d | _ => 0%R end))) spherical w wo = Ok layer ->
       0 < cin /\ (cin < 8 \/ cin mod 8 = 0) -> 0 < K <= 64 -> weighting interpolation wt ->
       kpconv_gpu active bactive warp time eps layer feats pin pout r None influence false false (fun o _ =>
         kpconv_gpu active2 bactive2 warp2 time2 eps2 layer feats2 pin2 pout2 (s * r) None (option_map (Rmult (Q2R s)) influence) false false (fun o2 _ =>
           agree cout o o2))).
Proof. exact C69_scaled_cuda_proof. Qed.
Print Assumptions C69_scaled_cuda.

(** C69, pooling depends on the distances relative to the radius only: it gives
    corresponding points of a rotated, reflected, translated and scaled cloud the
    same features. *)
Theorem C69_pooling :
  forall eps eps2 D s r e e2 rows ids pin crows cids pout rows2 ids2 pin2 crows2 cids2 pout2 ps qs feats feats2 cin F F2,
    (0 < s)%Q -> given feats pin cin F -> given feats2 pin2 cin F2 ->
    similar D s e (rows, ids) (crows, cids) e2 (rows2, ids2) (crows2, cids2) ps qs -> rows_match ps F F2 ->
    let search := find_neighbors_tf GPU in
    let agree := outputs_match cin (length cids) (length cids2) qs in
    (workable eps D r rows ids pin crows cids pout -> workable eps2 D (s * r) rows2 ids2 pin2 crows2 cids2 pout2 ->
     (exists o o2,
        max_pooling GPU eps search feats pin pout (Some [r]) false false = Ok o /\
        max_pooling GPU eps2 search feats2 pin2 pout2 (Some [(s * r)%Q]) false false = Ok o2 /\ agree o o2) /\
     (exists o o2,
        average_pooling GPU eps search feats pin pout (Some [r]) false false = Ok o /\
        average_pooling GPU eps2 search feats2 pin2 pout2 (Some [(s * r)%Q]) false false = Ok o2 /\ agree o o2)) /\
    (forall active pactive bactive warp time active2 pactive2 bactive2 warp2 time2,
     device_ok active pactive bactive warp -> device_ok active2 pactive2 bactive2 warp2 ->
     cuda_workable (scan_limit active warp) eps D r rows ids pin crows cids pout ->
     cuda_workable (scan_limit active2 warp2) eps2 D (s * r) rows2 ids2 pin2 crows2 cids2 pout2 ->
     max_pooling_gpu active warp time eps feats pin pout (Some [r]) false false (fun o =>
       max_pooling_gpu active2 warp2 time2 eps2 feats2 pin2 pout2 (Some [(s * r)%Q]) false false (fun o2 => agree o o2)) /\
     average_pooling_gpu active warp time eps feats pin pout (Some [r]) false false (fun o =>
       average_pooling_gpu active2 warp2 time2 eps2 feats2 pin2 pout2 (Some [(s * r)%Q]) false false (fun o2 => agree o o2))).
Proof. exact C69_pooling_proof. Qed.
Print Assumptions C69_pooling.

(** C69, densities: with one bandwidth for all axes (relative to the radius) the
    kernel density estimates of corresponding points are equal. *)
Theorem C69_density :
  forall dev eps eps2 D s r e e2 rows ids B cs g n rows2 ids2 B2 cs2 g2 n2 ps max_neighbors bandwidth mode v v2,
    (0 < s)%Q -> (0 < r)%Q -> (0 < bandwidth)%R ->
    usable eps D rows ids B cs g -> usable eps2 D rows2 ids2 B2 cs2 g2 -> ids <> [] -> ids2 <> [] ->
    radii_match D (repeat r D) cs -> radii_match D (repeat (s * r)%Q D) cs2 ->
    snd (mk_nbh (find_neighbors_tf GPU) g (repeat r D) None max_neighbors) = Ok n ->
    snd (mk_nbh (find_neighbors_tf GPU) g2 (repeat (s * r)%Q D) None max_neighbors) = Ok n2 ->
    similar D s e (rows, ids) (rows, ids) e2 (rows2, ids2) (rows2, ids2) ps ps ->
    compute_pdf_tf dev n (repeat bandwidth D) mode = Ok v -> compute_pdf_tf dev n2 (repeat bandwidth D) mode = Ok v2 ->
    forall k k2, k < length ids -> k2 < length ids2 ->
      In (nth k (gsidx g) 0, nth k2 (gsidx g2) 0) ps -> nth k v 0%R = nth k2 v2 0%R.
Proof. exact C69_density_proof. Qed.
Print Assumptions C69_density.

Theorem C69_pointconv_refuted :
  ~ (forall eps eps2 D s r t e e2 rows ids pin crows cids pout rows2 ids2 pin2 crows2 cids2 pout2 ps qs feats feats2 cin F F2,
    (0 < s)%Q -> workable eps D r rows ids pin crows cids pout -> workable eps2 D (s * r) rows2 ids2 pin2 crows2 cids2 pout2 ->
    given feats pin cin F -> given feats2 pin2 cin F2 ->
    scaled D s t e (rows, ids) e2 (rows2, ids2) ps -> scaled D s t e (crows, cids) e2 (crows2, cids2) qs -> rows_match ps F F2 ->
    let search := find_neighbors_tf GPU in let kde := compute_pdf_tf GPU in
    forall cout hidden act a axis bias w w1 b1 w2 b2 bandwidth,
       2 <= length cids -> 2 <= length cids2 -> 0 < cin -> 0 < hidden -> activation act a -> (0 < bandwidth)%R ->
       let layer := mk_pointconv cin cout D hidden act axis bias w w1 b1 w2 b2 in
       exists o o2,
         pointconv_call GPU eps search kde layer feats pin pout r None bandwidth false false = Ok o /\
         pointconv_call GPU eps2 search kde layer feats2 pin2 pout2 (s * r) None bandwidth false false = Ok o2 /\
         outputs_match cout (length cids) (length cids2) qs o o2).
Proof. exact C69_pointconv_refuted_proof. Qed.
Print Assumptions C69_pointconv_refuted.

Example C69_scaled_ex :
  workable (1#1000) 2 1 exS_rows exS_ids (seg 2 exS_rows exS_ids 1) exS_rows exS_ids (seg 2 exS_rows exS_ids 1) /\
  workable (1#1000) 2 ((2#1) * 1) exS_double exS_ids (seg 2 exS_double exS_ids 1) exS_double exS_ids (seg 2 exS_double exS_ids 1) /\
  given (Feat 1 (inr exS_F)) (seg 2 exS_rows exS_ids 1) 1 exS_F /\ given (Feat 1 (inr exS_F)) (seg 2 exS_double exS_ids 1) 1 exS_F /\
  scaled 2 (2#1) (fun _ => 0%Q) 0 (exS_rows, exS_ids) 0 (exS_double, exS_ids) [(0,0);(1,1)] /\
  near_points 2 1 exS_rows exS_ids exS_rows exS_ids 0 = [0;1] /\ near_points 2 ((2#1) * 1) exS_double exS_ids exS_double exS_ids 0 = [0;1] /\
  exists layer, mk_mcconv 1 4 2 2 [3;8] "ReLU" (fun k idx => INR (k + hd 0 idx)) (fun _ _ => 0%R) (fun idx => INR (hd 0 idx)) = Ok layer.
Proof. exact C69_scaled_ex_proof. Qed.

Example C69_scaled_cuda_ex :
  device_ok ex55_active 3 5 32 /\
  cuda_workable (scan_limit ex55_active 32) (1#1000) 2 1 exS_rows exS_ids (seg 2 exS_rows exS_ids 1) exS_rows exS_ids (seg 2 exS_rows exS_ids 1) /\
  cuda_workable (scan_limit ex55_active 32) (1#1000) 2 ((2#1) * 1) exS_double exS_ids (seg 2 exS_double exS_ids 1) exS_double exS_ids (seg 2 exS_double exS_ids 1) /\
  given (Feat 1 (inr exS_F)) (seg 2 exS_rows exS_ids 1) 1 exS_F /\ given (Feat 1 (inr exS_F)) (seg 2 exS_double exS_ids 1) 1 exS_F /\
  scaled 2 (2#1) (fun _ => 0%Q) 0 (exS_rows, exS_ids) 0 (exS_double, exS_ids) [(0,0);(1,1)] /\
  length exS_ids <= scan_limit ex55_active 32 /\ SpecGpuBasis.supported (last [3;8] 0 * 2) 1.
Proof. exact C69_scaled_cuda_ex_proof. Qed.

Example C69_pooling_ex :
  (0 < 2#1)%Q /\ given (Feat 1 (inr exS_F)) (seg 2 exS_rows exS_ids 1) 1 exS_F /\ given (Feat 1 (inr exS_F)) (seg 2 exS_turned exS_ids 1) 1 exS_F /\
  similar 2 (2#1) 0 (exS_rows, exS_ids) (exS_rows, exS_ids) 0 (exS_turned, exS_ids) (exS_turned, exS_ids) [(0,0);(1,1)] [(0,0);(1,1)] /\
  workable (1#1000) 2 1 exS_rows exS_ids (seg 2 exS_rows exS_ids 1) exS_rows exS_ids (seg 2 exS_rows exS_ids 1) /\
  workable (1#1000) 2 ((2#1) * 1) exS_turned exS_ids (seg 2 exS_turned exS_ids 1) exS_turned exS_ids (seg 2 exS_turned exS_ids 1) /\
  device_ok ex55_active 3 5 32 /\
  cuda_workable (scan_limit ex55_active 32) (1#1000) 2 ((2#1) * 1) exS_turned exS_ids (seg 2 exS_turned exS_ids 1) exS_turned exS_ids (seg 2 exS_turned exS_ids 1).
Proof. exact C69_pooling_ex_proof. Qed.

Example C69_density_ex :
  exists g g2 n n2 v v2,
    usable (1#1000) 2 exS_rows exS_ids 1 [1#1] g /\ usable (1#1000) 2 exS_turned exS_ids 1 [2#1] g2 /\
    radii_match 2 (repeat (1#1) 2) [1#1] /\ radii_match 2 (repeat ((2#1) * (1#1))%Q 2) [2#1] /\
    snd (mk_nbh (find_neighbors_tf GPU) g (repeat (1#1) 2) None 0) = Ok n /\
    snd (mk_nbh (find_neighbors_tf GPU) g2 (repeat ((2#1) * (1#1))%Q 2) None 0) = Ok n2 /\
    similar 2 (2#1) 0 (exS_rows, exS_ids) (exS_rows, exS_ids) 0 (exS_turned, exS_ids) (exS_turned, exS_ids) [(0,0);(1,1)] [(0,0);(1,1)] /\
    compute_pdf_tf GPU n (repeat (1/5)%R 2) KConstant = Ok v /\ compute_pdf_tf GPU n2 (repeat (1/5)%R 2) KConstant = Ok v2 /\
    gsidx g = [0;1] /\ gsidx g2 = [0;1].
Proof. exact C69_density_ex_proof. Qed.

Example C69_pointconv_refuted_ex :
  workable (1#1000) 2 1 exS_rows exS_ids (seg 2 exS_rows exS_ids 1) exS_rows exS_ids (seg 2 exS_rows exS_ids 1) /\
  workable (1#1000) 2 ((2#1) * 1) exS_double exS_ids (seg 2 exS_double exS_ids 1) exS_double exS_ids (seg 2 exS_double exS_ids 1) /\
  scaled 2 (2#1) (fun _ => 0%Q) 0 (exS_rows, exS_ids) 0 (exS_double, exS_ids) [(0,0);(1,1)] /\
  (forall dens mx, pt_formula 2 1 exS_rows exS_ids exS_rows exS_ids exS_F 1 1 (fun x => Rmax 0 x) exS_axis (fun _ => 0%R) (fun _ => 1%R) (fun _ => 0%R) (fun _ => 0%R) (fun _ => 0%R) (fun _ => 1%R) dens mx 0 0 = (1/2)%R) /\
  (forall dens mx, pt_formula 2 2 exS_double exS_ids exS_double exS_ids exS_F 1 1 (fun x => Rmax 0 x) exS_axis (fun _ => 0%R) (fun _ => 1%R) (fun _ => 0%R) (fun _ => 0%R) (fun _ => 0%R) (fun _ => 1%R) dens mx 0 0 = 1%R).
Proof. exact C69_pointconv_refuted_ex_proof. Qed.
