(** Residual networks with the CUDA operations (C70)
    Generated by tools/gen_props.py from CudaBlockProofs.v: statements only. *)
From Coq Require Import String List Arith ZArith NArith QArith Qround Qreals Reals Lia Lra Bool Permutation.
From Verif Require Import GpuBasis GpuPdf Cuda GpuGrid Tensor TensorFacts Spec SpecText TextFacts PointCloud SpecCloud History PointCloudFacts QFacts Grid SpecGrid GridFacts Neighbors SpecNeighbors NeighborFacts NeighborProofs Neighborhood NeighborhoodFacts
  SamplingFacts SamplingProofs Pdf SpecPdf PdfFacts PdfProofs RTensor RTensorFacts Layers SpecLayers LayerFacts LayerLink LayerProofs ConvProofs
  CudaFacts GpuGridFacts GpuNeighbors GpuNeighborFacts
  GpuBasisFacts SpecGpuBasis GpuBasisProofs SpecGpuPdf GpuPdfFacts GpuPdfProofs
  CudaLayers SpecCudaLayers CudaLayerFacts CudaDensityFacts CudaConvFacts CudaLayerProofs Blocks SpecBlocks BlockFacts BlockProofs
  CudaBlocks SpecCudaBlocks CudaBlockFacts.
From Verif Require Import CudaBlockProofs.
Import ListNotations.
Local Open Scope nat_scope.

(** C70. The factor of the densities. *)
Theorem C70_factor : forall D, D <= 6 -> (1 - 1 / 100000000 <= density_factor D <= 1)%R.
Proof. exact C70_factor_proof. Qed.
Print Assumptions C70_factor.

(** C70, PointResNet with a neighborhood of the cloud: the formula of C51 with
    the densities times the factor, for every device and every interleaving. *)
Theorem C70_network_partial :
  forall active pactive bactive warp time eps D r rows ids p name C blocks args a mx projection pw pb net bn act feats F bandwidth
         return_sorted return_padded out,
    device_ok active pactive bactive warp ->
    cuda_workable (scan_limit active warp) eps D r rows ids p rows ids p ->
    mk_resnet C blocks D name projection args pw pb = Ok net -> 0 < C ->
    (forall k, cuda_applicable C (args k) (a k)) -> (forall k, keeps_shape (bn k)) -> keeps_shape act ->
    given feats p C F -> matrix (length ids) C F -> (0 < bandwidth)%R ->
    let near := near_points D r rows ids rows ids in
    let dens := fun j => (density_factor D * density D (repeat bandwidth D) (repeat r D) rows ids j)%R in
    largest near (length ids) dens mx ->
    let conv := fun k => layer_formula near D rows rows r dens mx (length ids) C C (args k) (a k) in
    returned p return_sorted return_padded C
      (residual_network (length ids) C (two_convolutions bn act conv) (shortcut projection (length ids) C pw pb) blocks F) = Ok out ->
    mk_grid_gpu (active KKeys) warp eps p (repeat r D) (fun g =>
    neighborhood_gpu active warp time g (repeat r D) (Some p) 0 (fun n =>
    resnet_gpu active pactive bactive warp time eps net bn act feats p r (Some (DNbh n None)) bandwidth return_sorted return_padded
      (fun o => o = out))).
Proof. exact C70_network_partial_proof. Qed.
Print Assumptions C70_network_partial.

(** C70, PointResNet without a neighborhood: the convolutions take the neighbors
    of output point [i] around the point number [nth i order]; the order depends
    on the cloud and the radius only, not on the device or the schedule. *)
Theorem C70_own_neighborhood_partial :
  forall eps D r rows ids B p, cloud GPU eps D rows ids B p ->
  exists order, Permutation order (seq 0 (length ids)) /\
  forall active pactive bactive warp time name C blocks args a mx projection pw pb net bn act feats F bandwidth
         return_sorted return_padded out,
    device_ok active pactive bactive warp ->
    cuda_workable (scan_limit active warp) eps D r rows ids p rows ids p ->
    mk_resnet C blocks D name projection args pw pb = Ok net -> 0 < C ->
    (forall k, cuda_applicable C (args k) (a k)) -> (forall k, keeps_shape (bn k)) -> keeps_shape act ->
    given feats p C F -> matrix (length ids) C F -> (0 < bandwidth)%R ->
    let near := near_points D r rows ids rows ids in
    let dens := fun j => (density_factor D * density D (repeat bandwidth D) (repeat r D) rows ids j)%R in
    largest near (length ids) dens mx ->
    let at_ := fun i => nth i order 0 in
    let conv := fun k => layer_formula (fun i => near (at_ i)) D rows rows r dens (fun i => mx (at_ i)) (length ids) C C (args k) (a k) in
    returned p return_sorted return_padded C
      (residual_network (length ids) C (two_convolutions bn act conv) (shortcut projection (length ids) C pw pb) blocks F) = Ok out ->
    resnet_gpu active pactive bactive warp time eps net bn act feats p r None bandwidth return_sorted return_padded (fun o => o = out).
Proof. exact C70_own_neighborhood_partial_proof. Qed.
Print Assumptions C70_own_neighborhood_partial.

(** C70, PointResNetSpatialBottleNeck with the three neighborhoods. *)
Theorem C70_spatial_partial :
  forall active pactive bactive warp time eps D r0 r1 r2 rows ids p crows cids q name C blocks args a mx0 mx1 mx2 projection pw pb net bn act
         feats F bandwidth return_sorted return_padded out,
    device_ok active pactive bactive warp ->
    cuda_workable (scan_limit active warp) eps D r0 rows ids p crows cids q ->
    cuda_workable (scan_limit active warp) eps D r1 crows cids q crows cids q ->
    cuda_workable (scan_limit active warp) eps D r2 crows cids q rows ids p ->
    mk_spatial C blocks D name projection args pw pb = Ok net -> 0 < C ->
    (forall k, cuda_applicable C (args k) (a k)) -> (forall k, keeps_shape (bn k)) -> keeps_shape act ->
    given feats p C F -> matrix (length ids) C F -> (0 < bandwidth)%R ->
    let near0 := near_points D r0 rows ids crows cids in
    let near1 := near_points D r1 crows cids crows cids in
    let near2 := near_points D r2 crows cids rows ids in
    let dens0 := fun j => (density_factor D * density D (repeat bandwidth D) (repeat r0 D) rows ids j)%R in
    let dens1 := fun j => (density_factor D * density D (repeat bandwidth D) (repeat r1 D) crows cids j)%R in
    let dens2 := fun j => (density_factor D * density D (repeat bandwidth D) (repeat r2 D) crows cids j)%R in
    largest near0 (length cids) dens0 mx0 -> largest near1 (length cids) dens1 mx1 -> largest near2 (length ids) dens2 mx2 ->
    let down := fun k => layer_formula near0 D rows crows r0 dens0 mx0 (length cids) C C (args (3 * k + 2)) (a (3 * k + 2)) in
    let middle := fun k => layer_formula near1 D crows crows r1 dens1 mx1 (length cids) C C (args (3 * k + 1)) (a (3 * k + 1)) in
    let up := fun k => layer_formula near2 D crows rows r2 dens2 mx2 (length ids) C C (args (3 * k)) (a (3 * k)) in
    returned p return_sorted return_padded C
      (residual_network (length ids) C (coarse_convolution bn act down middle up) (shortcut projection (length ids) C pw pb) blocks F) = Ok out ->
    mk_grid_gpu (active KKeys) warp eps p (repeat r0 D) (fun g0 => neighborhood_gpu active warp time g0 (repeat r0 D) (Some q) 0 (fun n0 =>
    mk_grid_gpu (active KKeys) warp eps q (repeat r1 D) (fun g1 => neighborhood_gpu active warp time g1 (repeat r1 D) (Some q) 0 (fun n1 =>
    mk_grid_gpu (active KKeys) warp eps q (repeat r2 D) (fun g2 => neighborhood_gpu active warp time g2 (repeat r2 D) (Some p) 0 (fun n2 =>
    spatial_gpu active pactive bactive warp time eps net bn act feats p q r0 r1 r2 (Some (DNbh n0 None, DNbh n1 None, DNbh n2 None)) bandwidth
      return_sorted return_padded (fun o => o = out))))))).
Proof. exact C70_spatial_partial_proof. Qed.
Print Assumptions C70_spatial_partial.

(** C70, PointResNetSpatialBottleNeck without neighborhoods: the middle
    convolutions use the order of the grid of the coarse cloud. *)
Theorem C70_spatial_own_partial :
  forall eps D r1 crows cids B q, cloud GPU eps D crows cids B q ->
  exists order, Permutation order (seq 0 (length cids)) /\
  forall active pactive bactive warp time r0 r2 rows ids p name C blocks args a mx0 mx1 mx2 projection pw pb net bn act
         feats F bandwidth return_sorted return_padded out,
    device_ok active pactive bactive warp ->
    cuda_workable (scan_limit active warp) eps D r0 rows ids p crows cids q ->
    cuda_workable (scan_limit active warp) eps D r1 crows cids q crows cids q ->
    cuda_workable (scan_limit active warp) eps D r2 crows cids q rows ids p -> (r0 == r2 -> r0 = r2)%Q ->
    mk_spatial C blocks D name projection args pw pb = Ok net -> 0 < C ->
    (forall k, cuda_applicable C (args k) (a k)) -> (forall k, keeps_shape (bn k)) -> keeps_shape act ->
    given feats p C F -> matrix (length ids) C F -> (0 < bandwidth)%R ->
    let near0 := near_points D r0 rows ids crows cids in
    let near1 := near_points D r1 crows cids crows cids in
    let near2 := near_points D r2 crows cids rows ids in
    let dens0 := fun j => (density_factor D * density D (repeat bandwidth D) (repeat r0 D) rows ids j)%R in
    let dens1 := fun j => (density_factor D * density D (repeat bandwidth D) (repeat r1 D) crows cids j)%R in
    let dens2 := fun j => (density_factor D * density D (repeat bandwidth D) (repeat r2 D) crows cids j)%R in
    largest near0 (length cids) dens0 mx0 -> largest near1 (length cids) dens1 mx1 -> largest near2 (length ids) dens2 mx2 ->
    let at_ := fun i => nth i order 0 in
    let down := fun k => layer_formula near0 D rows crows r0 dens0 mx0 (length cids) C C (args (3 * k + 2)) (a (3 * k + 2)) in
    let middle := fun k => layer_formula (fun i => near1 (at_ i)) D crows crows r1 dens1 (fun i => mx1 (at_ i)) (length cids) C C
                             (args (3 * k + 1)) (a (3 * k + 1)) in
    let up := fun k => layer_formula near2 D crows rows r2 dens2 mx2 (length ids) C C (args (3 * k)) (a (3 * k)) in
    returned p return_sorted return_padded C
      (residual_network (length ids) C (coarse_convolution bn act down middle up) (shortcut projection (length ids) C pw pb) blocks F) = Ok out ->
    spatial_gpu active pactive bactive warp time eps net bn act feats p q r0 r1 r2 None bandwidth return_sorted return_padded (fun o => o = out).
Proof. exact C70_spatial_own_partial_proof. Qed.
Print Assumptions C70_spatial_own_partial.

(** C70. With kernel points no call with a neighborhood returns: the blocks pass
    an argument that KPConv does not have (C51). *)
Theorem C70_kernel_points_refuted :
  forall active pactive bactive warp time eps name C blocks D projection args pw pb bn act feats p q r r0 r1 r2 nb nbs bandwidth
         return_sorted return_padded P,
    means name ["kpconv"; "kp"; "kp_conv"]%string -> 0 < blocks ->
    (forall net, mk_resnet C blocks D name projection args pw pb = Ok net ->
     ~ resnet_gpu active pactive bactive warp time eps net bn act feats p r (Some nb) bandwidth return_sorted return_padded P) /\
    (forall net, mk_spatial C blocks D name projection args pw pb = Ok net ->
     ~ spatial_gpu active pactive bactive warp time eps net bn act feats p q r0 r1 r2 (Some nbs) bandwidth return_sorted return_padded P).
Proof. exact C70_kernel_points_refuted_proof. Qed.
Print Assumptions C70_kernel_points_refuted.

(** C70. Without a neighborhood the result differs from that with the
    neighborhood of the cloud, if the points are not in the order of the grid. *)
Theorem C70_order_refuted :
  exists eps rows ids p args net F,
    mk_resnet 1 1 2 "MCConv" false (fun _ => args) (fun _ _ => 0%R) (fun _ _ => 0%R) = Ok net /\
    given (Feat 1 (inr F)) p 1 F /\ matrix (length ids) 1 F /\
    forall active pactive bactive warp time bandwidth, device_ok active pactive bactive warp -> (0 < bandwidth)%R ->
      cuda_workable (scan_limit active warp) eps 2 1 rows ids p rows ids p /\
      exists out out', out <> out' /\
      resnet_gpu active pactive bactive warp time eps net (fun _ X => X) (fun X => X) (Feat 1 (inr F)) p 1 None bandwidth false false (fun o => o = out) /\
      mk_grid_gpu (active KKeys) warp eps p (repeat (1#1) 2) (fun g =>
      neighborhood_gpu active warp time g (repeat (1#1) 2) (Some p) 0 (fun n =>
      resnet_gpu active pactive bactive warp time eps net (fun _ X => X) (fun X => X) (Feat 1 (inr F)) p 1 (Some (DNbh n None)) bandwidth false false
        (fun o => o = out'))).
Proof. exact C70_order_refuted_proof. Qed.
Print Assumptions C70_order_refuted.

(** * Examples *)
Example C70_factor_ex : density_factor 3 = ((0.39894228 * sqrt (2 * PI)) ^ 3)%R /\ 3 <= 6.
Proof. exact C70_factor_ex_proof. Qed.

(** Two blocks of PointConv layers with projections on six points in two batch
    elements with two features. *)
Example C70_network_partial_ex : exists net mx out,
  device_ok ex55_active 3 5 32 /\
  cuda_workable (scan_limit ex55_active 32) (1#1000) 2 1 exN_rows exN_ids exN_p exN_rows exN_ids exN_p /\
  mk_resnet 2 2 2 "PointConv" true exB_point (fun k idx => INR (k + hd 0 idx)) (fun _ _ => 1%R) = Ok net /\
  (forall k, cuda_applicable 2 (exB_point k) leaky) /\ keeps_shape (map (map (Rmax 0))) /\
  given (Feat 2 (inr exN_F)) exN_p 2 exN_F /\ matrix 6 2 exN_F /\
  let dens := fun j => (density_factor 2 * density 2 (repeat 1%R 2) (repeat (1#1) 2) exN_rows exN_ids j)%R in
  let near := near_points 2 1 exN_rows exN_ids exN_rows exN_ids in
  largest near 6 dens mx /\
  map near (seq 0 6) = [[0; 1]; [0; 1]; [2]; [3]; [4; 5]; [4; 5]] /\
  returned exN_p false false 2
    (residual_network 6 2 (two_convolutions (fun _ X => X) (map (map (Rmax 0))) (fun k => layer_formula near 2 exN_rows exN_rows 1 dens mx 6 2 2 (exB_point k) leaky))
      (shortcut true 6 2 (fun k idx => INR (k + hd 0 idx)) (fun _ _ => 1%R)) 2 exN_F) = Ok out /\
  forall time,
    mk_grid_gpu (ex55_active KKeys) 32 (1#1000) exN_p (repeat (1#1) 2) (fun g =>
    neighborhood_gpu ex55_active 32 time g (repeat (1#1) 2) (Some exN_p) 0 (fun n =>
    resnet_gpu ex55_active 3 5 32 time (1#1000) net (fun _ X => X) (map (map (Rmax 0))) (Feat 2 (inr exN_F)) exN_p 1 (Some (DNbh n None)) 1 false false
      (fun o => o = out))).
Proof. exact C70_network_partial_ex_proof. Qed.

(** The same without a neighborhood; the order is not that of the points. *)
Example C70_own_neighborhood_partial_ex : exists net mx order out,
  cloud GPU (1#1000) 2 exN_rows exN_ids 2 exN_p /\ device_ok ex55_active 3 5 32 /\
  cuda_workable (scan_limit ex55_active 32) (1#1000) 2 1 exN_rows exN_ids exN_p exN_rows exN_ids exN_p /\
  mk_resnet 2 2 2 "PointConv" true exB_point (fun k idx => INR (k + hd 0 idx)) (fun _ _ => 1%R) = Ok net /\
  order = [4; 5; 3; 2; 0; 1] /\
  let dens := fun j => (density_factor 2 * density 2 (repeat 1%R 2) (repeat (1#1) 2) exN_rows exN_ids j)%R in
  let near := near_points 2 1 exN_rows exN_ids exN_rows exN_ids in
  let at_ := fun i => nth i order 0 in
  largest near 6 dens mx /\
  returned exN_p false false 2
    (residual_network 6 2 (two_convolutions (fun _ X => X) (map (map (Rmax 0)))
        (fun k => layer_formula (fun i => near (at_ i)) 2 exN_rows exN_rows 1 dens (fun i => mx (at_ i)) 6 2 2 (exB_point k) leaky))
      (shortcut true 6 2 (fun k idx => INR (k + hd 0 idx)) (fun _ _ => 1%R)) 2 exN_F) = Ok out /\
  forall time,
    resnet_gpu ex55_active 3 5 32 time (1#1000) net (fun _ X => X) (map (map (Rmax 0))) (Feat 2 (inr exN_F)) exN_p 1 None 1 false false
      (fun o => o = out).
Proof. exact C70_own_neighborhood_partial_ex_proof. Qed.

Example C70_spatial_partial_ex : exists net mx0 mx1 mx2 out,
  device_ok ex55_active 3 5 32 /\
  cuda_workable (scan_limit ex55_active 32) (1#1000) 2 1 exN_rows exN_ids exN_p exN_centers exN_cids exN_q /\
  cuda_workable (scan_limit ex55_active 32) (1#1000) 2 1 exN_centers exN_cids exN_q exN_centers exN_cids exN_q /\
  cuda_workable (scan_limit ex55_active 32) (1#1000) 2 1 exN_centers exN_cids exN_q exN_rows exN_ids exN_p /\
  mk_spatial 2 2 2 "PointConv" true exB_point (fun k idx => INR (k + hd 0 idx)) (fun _ _ => 1%R) = Ok net /\
  let near0 := near_points 2 1 exN_rows exN_ids exN_centers exN_cids in
  let near1 := near_points 2 1 exN_centers exN_cids exN_centers exN_cids in
  let near2 := near_points 2 1 exN_centers exN_cids exN_rows exN_ids in
  let fine := ex70_dens exN_rows exN_ids in
  let coarse := ex70_dens exN_centers exN_cids in
  largest near0 5 fine mx0 /\ largest near1 5 coarse mx1 /\ largest near2 6 coarse mx2 /\
  returned exN_p false false 2
    (residual_network 6 2 (coarse_convolution (fun _ X => X) (map (map (Rmax 0)))
        (fun k => layer_formula near0 2 exN_rows exN_centers 1 fine mx0 5 2 2 (exB_point (3 * k + 2)) leaky)
        (fun k => layer_formula near1 2 exN_centers exN_centers 1 coarse mx1 5 2 2 (exB_point (3 * k + 1)) leaky)
        (fun k => layer_formula near2 2 exN_centers exN_rows 1 coarse mx2 6 2 2 (exB_point (3 * k)) leaky))
      (shortcut true 6 2 (fun k idx => INR (k + hd 0 idx)) (fun _ _ => 1%R)) 2 exN_F) = Ok out /\
  forall time,
    mk_grid_gpu (ex55_active KKeys) 32 (1#1000) exN_p (repeat (1#1) 2) (fun g0 => neighborhood_gpu ex55_active 32 time g0 (repeat (1#1) 2) (Some exN_q) 0 (fun n0 =>
    mk_grid_gpu (ex55_active KKeys) 32 (1#1000) exN_q (repeat (1#1) 2) (fun g1 => neighborhood_gpu ex55_active 32 time g1 (repeat (1#1) 2) (Some exN_q) 0 (fun n1 =>
    mk_grid_gpu (ex55_active KKeys) 32 (1#1000) exN_q (repeat (1#1) 2) (fun g2 => neighborhood_gpu ex55_active 32 time g2 (repeat (1#1) 2) (Some exN_p) 0 (fun n2 =>
    spatial_gpu ex55_active 3 5 32 time (1#1000) net (fun _ X => X) (map (map (Rmax 0))) (Feat 2 (inr exN_F)) exN_p exN_q 1 1 1
      (Some (DNbh n0 None, DNbh n1 None, DNbh n2 None)) 1 false false (fun o => o = out))))))).
Proof. exact C70_spatial_partial_ex_proof. Qed.

Example C70_spatial_own_partial_ex : exists net mx0 mx1 mx2 order out,
  cloud GPU (1#1000) 2 exN_centers exN_cids 2 exN_q /\ device_ok ex55_active 3 5 32 /\
  mk_spatial 2 2 2 "PointConv" true exB_point (fun k idx => INR (k + hd 0 idx)) (fun _ _ => 1%R) = Ok net /\
  Permutation order (seq 0 5) /\ order <> seq 0 5 /\
  let near0 := near_points 2 1 exN_rows exN_ids exN_centers exN_cids in
  let near1 := near_points 2 1 exN_centers exN_cids exN_centers exN_cids in
  let near2 := near_points 2 1 exN_centers exN_cids exN_rows exN_ids in
  let fine := ex70_dens exN_rows exN_ids in
  let coarse := ex70_dens exN_centers exN_cids in
  let at_ := fun i => nth i order 0 in
  largest near0 5 fine mx0 /\ largest near1 5 coarse mx1 /\ largest near2 6 coarse mx2 /\
  returned exN_p false false 2
    (residual_network 6 2 (coarse_convolution (fun _ X => X) (map (map (Rmax 0)))
        (fun k => layer_formula near0 2 exN_rows exN_centers 1 fine mx0 5 2 2 (exB_point (3 * k + 2)) leaky)
        (fun k => layer_formula (fun i => near1 (at_ i)) 2 exN_centers exN_centers 1 coarse (fun i => mx1 (at_ i)) 5 2 2 (exB_point (3 * k + 1)) leaky)
        (fun k => layer_formula near2 2 exN_centers exN_rows 1 coarse mx2 6 2 2 (exB_point (3 * k)) leaky))
      (shortcut true 6 2 (fun k idx => INR (k + hd 0 idx)) (fun _ _ => 1%R)) 2 exN_F) = Ok out /\
  forall time,
    spatial_gpu ex55_active 3 5 32 time (1#1000) net (fun _ X => X) (map (map (Rmax 0))) (Feat 2 (inr exN_F)) exN_p exN_q 1 1 1 None 1 false false
      (fun o => o = out).
Proof. exact C70_spatial_own_partial_ex_proof. Qed.

(** The witness: three points in one row, more than the radius apart, which the
    grid orders differently. *)
Example C70_order_refuted_ex :
  gpu_order (1#1000) 2 1 exB_rows exB_ids 1 = [1; 2; 0] /\ exB_rows = [[0; 0]; [4#1; 0]; [2#1; 0]]%Q /\ exB_F = [[1%R]; [0%R]; [0%R]].
Proof. exact C70_order_refuted_ex_proof. Qed.

(** The constructor accepts kernel points. *)
Example C70_kernel_points_refuted_ex : exists net,
  means "KPConv" ["kpconv"; "kp"; "kp_conv"]%string /\
  mk_resnet 2 1 2 "KPConv" false (fun _ => exB_kernel) (fun _ _ => 1%R) (fun _ _ => 1%R) = Ok net.
Proof. exact C70_kernel_points_refuted_ex_proof. Qed.
