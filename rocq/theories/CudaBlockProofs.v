(** Proofs about the residual networks with the CUDA operations (C70). The
    statements are copied into PropertiesCudaBlocks.v. *)
From Coq Require Import String List Arith ZArith NArith QArith Qround Qreals Reals Lia Lra Bool Permutation.
From Verif Require Import GpuBasis GpuPdf Cuda GpuGrid Tensor TensorFacts Spec SpecText TextFacts PointCloud SpecCloud History PointCloudFacts QFacts Grid SpecGrid GridFacts Neighbors SpecNeighbors NeighborFacts NeighborProofs Neighborhood NeighborhoodFacts
  SamplingFacts SamplingProofs Pdf SpecPdf PdfFacts PdfProofs RTensor RTensorFacts Layers SpecLayers LayerFacts LayerLink LayerProofs ConvProofs
  CudaFacts GpuGridFacts GpuNeighbors GpuNeighborFacts
  GpuBasisFacts SpecGpuBasis GpuBasisProofs SpecGpuPdf GpuPdfFacts GpuPdfProofs
  CudaLayers SpecCudaLayers CudaLayerFacts CudaDensityFacts CudaConvFacts CudaLayerProofs Blocks SpecBlocks BlockFacts BlockProofs
  CudaBlocks SpecCudaBlocks CudaBlockFacts.
Import ListNotations.
Local Open Scope nat_scope.

(** C70. The factor of the densities. *)
Lemma C70_factor_proof : forall D, D <= 6 -> (1 - 1 / 100000000 <= density_factor D <= 1)%R.
Proof. exact ratio_pow. Qed.

(** PointResNet with a neighborhood of the cloud, for every postcondition. *)
Lemma resnet_runs :
  forall active pactive bactive warp time eps D r rows ids p name C blocks args a mx projection pw pb net bn act feats F bandwidth
         return_sorted return_padded out (Post : feat -> Prop),
    device_ok active pactive bactive warp ->
    cuda_workable (scan_limit active warp) eps D r rows ids p rows ids p ->
    mk_resnet C blocks D name projection args pw pb = Ok net -> 0 < C ->
    (forall k, cuda_applicable C (args k) (a k)) -> (forall k, keeps_shape (bn k)) -> keeps_shape act ->
    given feats p C F -> matrix (length ids) C F -> (0 < bandwidth)%R ->
    let near := near_points D r rows ids rows ids in
    let dens := fun j => (density_factor D * density D (repeat bandwidth D) (repeat r D) rows ids j)%R in
    largest near (length ids) dens mx ->
    let conv := fun k => layer_formula near D rows rows r dens mx (length ids) C C (args k) (a k) in
    returned p return_sorted return_padded C
      (residual_network (length ids) C (two_convolutions bn act conv) (shortcut projection (length ids) C pw pb) blocks F) = Ok out ->
    Post out ->
    mk_grid_gpu (active KKeys) warp eps p (repeat r D) (fun g =>
    neighborhood_gpu active warp time g (repeat r D) (Some p) 0 (fun n =>
    resnet_gpu active pactive bactive warp time eps net bn act feats p r (Some (DNbh n None)) bandwidth return_sorted return_padded Post)).
Proof.
  intros active pactive bactive warp time eps D r rows ids p name C blocks args a mx projection pw pb net bn act feats F bw srt pad out Post
    Hdev W Enet HC Ha Hbn Hact Hg HF Hb near dens Hmx conv Ho HPost.
  apply mk_resnet_inv in Enet as (t & bs & _ & -> & Ebs).
  pose proof W as [(B & Hc & _) _ HD _ Hr _ (Hcne & Hlen)]. pose proof (cloud_is _ _ _ _ _ _ _ Hc) as Hi.
  pose proof (ic_pts _ _ _ _ _ _ _ Hi) as Ep. pose proof (ic_dim _ _ _ _ _ _ _ Hi) as Ed. pose proof (ic_len _ _ _ _ _ _ _ Hi) as El.
  apply (passed_gpu active pactive bactive warp time eps Hdev D r bw Hb rows ids p rows ids p); [exact W|exact Hlen|].
  intros n Hn _ _ _ _. eexists. split; [exact (given_rows_ten feats p C F _ Hg HF)|]. cbv zeta. cbn [rn_blocks].
  rewrite <- Ed in Ebs.
  apply (resnet_loop_gpu_ok active pactive bactive warp time eps (cready active pactive warp time D r bw rows ids rows ids) conv bn act p r bw C t args
    projection pw pb (length ids)) with (n := blocks); auto.
  - rewrite Ep. exact El.
  - intros k l X x El' HX Hx. rewrite Ed in El'.
    split; [|intros Q].
    + apply (layer_block_gpu active pactive bactive warp time eps D r bw rows ids rows ids rows p p t C C (args k) (a k) l mx X r x (fun _ _ => True)); auto.
    + apply (layer_block_gpu active pactive bactive warp time eps D r bw rows ids rows ids rows p p t C C (args k) (a k) l mx X r x Q); auto.
  - intros HY. exists out. split; [|exact HPost]. rewrite (rows_output _ _ _ _ _ _ HY). exact Ho.
Qed.

(** C70, PointResNet with a neighborhood of the cloud: the formula of C51 with
    the densities times the factor, for every device and every interleaving. *)
Lemma C70_network_partial_proof :
  forall active pactive bactive warp time eps D r rows ids p name C blocks args a mx projection pw pb net bn act feats F bandwidth
         return_sorted return_padded out,
    device_ok active pactive bactive warp ->
    cuda_workable (scan_limit active warp) eps D r rows ids p rows ids p ->
    mk_resnet C blocks D name projection args pw pb = Ok net -> 0 < C ->
    (forall k, cuda_applicable C (args k) (a k)) -> (forall k, keeps_shape (bn k)) -> keeps_shape act ->
    given feats p C F -> matrix (length ids) C F -> (0 < bandwidth)%R ->
    let near := near_points D r rows ids rows ids in
    let dens := fun j => (density_factor D * density D (repeat bandwidth D) (repeat r D) rows ids j)%R in
    largest near (length ids) dens mx ->
    let conv := fun k => layer_formula near D rows rows r dens mx (length ids) C C (args k) (a k) in
    returned p return_sorted return_padded C
      (residual_network (length ids) C (two_convolutions bn act conv) (shortcut projection (length ids) C pw pb) blocks F) = Ok out ->
    mk_grid_gpu (active KKeys) warp eps p (repeat r D) (fun g =>
    neighborhood_gpu active warp time g (repeat r D) (Some p) 0 (fun n =>
    resnet_gpu active pactive bactive warp time eps net bn act feats p r (Some (DNbh n None)) bandwidth return_sorted return_padded
      (fun o => o = out))).
Proof. intros. eapply resnet_runs; eauto. Qed.

(** PointResNet without a neighborhood. *)
Lemma resnet_own :
  forall active pactive bactive warp time eps D r rows ids B p name C blocks args a mx projection pw pb net bn act feats F bandwidth
         return_sorted return_padded out (Post : feat -> Prop),
    device_ok active pactive bactive warp -> cloud GPU eps D rows ids B p ->
    cuda_workable (scan_limit active warp) eps D r rows ids p rows ids p ->
    mk_resnet C blocks D name projection args pw pb = Ok net -> 0 < C ->
    (forall k, cuda_applicable C (args k) (a k)) -> (forall k, keeps_shape (bn k)) -> keeps_shape act ->
    given feats p C F -> matrix (length ids) C F -> (0 < bandwidth)%R ->
    let near := near_points D r rows ids rows ids in
    let dens := fun j => (density_factor D * density D (repeat bandwidth D) (repeat r D) rows ids j)%R in
    largest near (length ids) dens mx ->
    let at_ := fun i => nth i (gpu_order eps D r rows ids B) 0 in
    let conv := fun k => layer_formula (fun i => near (at_ i)) D rows rows r dens (fun i => mx (at_ i)) (length ids) C C (args k) (a k) in
    returned p return_sorted return_padded C
      (residual_network (length ids) C (two_convolutions bn act conv) (shortcut projection (length ids) C pw pb) blocks F) = Ok out ->
    Post out ->
    resnet_gpu active pactive bactive warp time eps net bn act feats p r None bandwidth return_sorted return_padded Post.
Proof.
  intros active pactive bactive warp time eps D r rows ids B p name C blocks args a mx projection pw pb net bn act feats F bw srt pad out Post
    Hdev HcB W Enet HC Ha Hbn Hact Hg HF Hb near dens Hmx at_ conv Ho HPost.
  apply mk_resnet_inv in Enet as (t & bs & _ & -> & Ebs).
  pose proof W as [(B' & Hc & _) _ HD _ Hr Hne (Hcne & Hlen)]. pose proof (cloud_is _ _ _ _ _ _ _ Hc) as Hi.
  pose proof (ic_pts _ _ _ _ _ _ _ Hi) as Ep. pose proof (ic_dim _ _ _ _ _ _ _ Hi) as Ed. pose proof (ic_len _ _ _ _ _ _ _ Hi) as El.
  eexists. split; [exact (given_rows_ten feats p C F _ Hg HF)|]. cbv zeta. cbn [rn_blocks rn_dims].
  apply (own_gpu active pactive bactive warp time eps Hdev D r bw Hb rows ids p rows ids p B); [exact W|exact Hlen|exact HcB|].
  intros x Hx. rewrite <- Ed in Ebs. set (s := gpu_order eps D r rows ids B) in *.
  apply (resnet_loop_gpu_ok active pactive bactive warp time eps
    (cready active pactive warp time D r bw rows ids (map (fun i => nth i rows []) s) (map (fun i => nth i ids 0) s)) conv bn act p r bw C t args
    projection pw pb (length ids)) with (n := blocks); auto.
  - rewrite Ep. exact El.
  - intros k l X y El' HX Hy. rewrite Ed in El'.
    split; [|intros Q].
    + apply (own_block_gpu active pactive bactive warp time eps D r bw rows ids p t C (args k) (a k) l mx s at_ X r y (fun _ _ => True)); auto.
      apply gpu_order_perm.
    + apply (own_block_gpu active pactive bactive warp time eps D r bw rows ids p t C (args k) (a k) l mx s at_ X r y Q); auto.
      apply gpu_order_perm.
  - intros HY. exists out. split; [|exact HPost]. rewrite (rows_output _ _ _ _ _ _ HY). exact Ho.
Qed.

(** C70, PointResNet without a neighborhood: the convolutions take the neighbors
    of output point [i] around the point number [nth i order]; the order depends
    on the cloud and the radius only, not on the device or the schedule. *)
Lemma C70_own_neighborhood_partial_proof :
  forall eps D r rows ids B p, cloud GPU eps D rows ids B p ->
  exists order, Permutation order (seq 0 (length ids)) /\
  forall active pactive bactive warp time name C blocks args a mx projection pw pb net bn act feats F bandwidth
         return_sorted return_padded out,
    device_ok active pactive bactive warp ->
    cuda_workable (scan_limit active warp) eps D r rows ids p rows ids p ->
    mk_resnet C blocks D name projection args pw pb = Ok net -> 0 < C ->
    (forall k, cuda_applicable C (args k) (a k)) -> (forall k, keeps_shape (bn k)) -> keeps_shape act ->
    given feats p C F -> matrix (length ids) C F -> (0 < bandwidth)%R ->
    let near := near_points D r rows ids rows ids in
    let dens := fun j => (density_factor D * density D (repeat bandwidth D) (repeat r D) rows ids j)%R in
    largest near (length ids) dens mx ->
    let at_ := fun i => nth i order 0 in
    let conv := fun k => layer_formula (fun i => near (at_ i)) D rows rows r dens (fun i => mx (at_ i)) (length ids) C C (args k) (a k) in
    returned p return_sorted return_padded C
      (residual_network (length ids) C (two_convolutions bn act conv) (shortcut projection (length ids) C pw pb) blocks F) = Ok out ->
    resnet_gpu active pactive bactive warp time eps net bn act feats p r None bandwidth return_sorted return_padded (fun o => o = out).
Proof.
  intros eps D r rows ids B p Hc. exists (gpu_order eps D r rows ids B). split; [apply gpu_order_perm|]. intros.
  eapply resnet_own; eauto.
Qed.

(** PointResNetSpatialBottleNeck, for both ways to call it. *)
Section Spatial.
  Context (active : kernel -> nat) (pactive bactive warp : nat) (time : N) (eps : Q).
  Context (Hdev : device_ok active pactive bactive warp).
  Context (D : nat) (r0 r1 r2 : Q) (rows : list point) (ids : list nat) (p : pc) (crows : list point) (cids : list nat) (q : pc).
  Context (W0 : cuda_workable (scan_limit active warp) eps D r0 rows ids p crows cids q).
  Context (W1 : cuda_workable (scan_limit active warp) eps D r1 crows cids q crows cids q).
  Context (W2 : cuda_workable (scan_limit active warp) eps D r2 crows cids q rows ids p).
  Context (name : string) (C blocks : nat) (args : nat -> layer_args) (a : nat -> R -> R) (mx0 mx1 mx2 : nat -> R) (projection : bool) (pw pb : nat -> list nat -> R).
  Context (net : spatial) (bn : nat -> mat -> mat) (act : mat -> mat) (feats : feat) (F : mat) (bw : R) (srt pad : bool).
  Context (Enet : mk_spatial C blocks D name projection args pw pb = Ok net) (HC : 0 < C).
  Context (Ha : forall k, cuda_applicable C (args k) (a k)) (Hbn : forall k, keeps_shape (bn k)) (Hact : keeps_shape act).
  Context (Hg : given feats p C F) (HF : matrix (length ids) C F) (Hb : (0 < bw)%R).
  Let near0 := near_points D r0 rows ids crows cids.
  Let near1 := near_points D r1 crows cids crows cids.
  Let near2 := near_points D r2 crows cids rows ids.
  Let dens0 := fun j => (density_factor D * density D (repeat bw D) (repeat r0 D) rows ids j)%R.
  Let dens1 := fun j => (density_factor D * density D (repeat bw D) (repeat r1 D) crows cids j)%R.
  Let dens2 := fun j => (density_factor D * density D (repeat bw D) (repeat r2 D) crows cids j)%R.
  Context (Hm0 : largest near0 (length cids) dens0 mx0) (Hm1 : largest near1 (length cids) dens1 mx1) (Hm2 : largest near2 (length ids) dens2 mx2).
  Let down := fun k => layer_formula near0 D rows crows r0 dens0 mx0 (length cids) C C (args (3 * k + 2)) (a (3 * k + 2)).
  Let middle := fun at_ k => layer_formula (fun i => near1 (at_ i)) D crows crows r1 dens1 (fun i => mx1 (at_ i)) (length cids) C C
                             (args (3 * k + 1)) (a (3 * k + 1)).
  Let up := fun k => layer_formula near2 D crows rows r2 dens2 mx2 (length ids) C C (args (3 * k)) (a (3 * k)).
  Let ready0 := cready active pactive warp time D r0 bw rows ids crows cids.
  Let ready2 := cready active pactive warp time D r2 bw crows cids rows ids.

  Lemma spatial_core at_ (inv1 : dnbh -> Prop) x0 x1 x2 f out (Post : feat -> Prop) :
    flat_features feats p = Ok f -> ready0 x0 -> inv1 x1 -> ready2 x2 ->
    (forall t k l X x, new_layer C C D t (args (3 * k + 1)) = Ok l -> matrix (length cids) C X -> inv1 x ->
     matrix (length cids) C (middle at_ k X) /\
     forall Q : dnbh -> ten -> Prop, (forall y, inv1 y -> Q y (of_rows C (middle at_ k X))) ->
       block_conv_gpu active pactive bactive warp time eps l (of_rows C X) q q r1 x bw Q) ->
    returned p srt pad C
      (residual_network (length ids) C (coarse_convolution bn act down (middle at_) up) (shortcut projection (length ids) C pw pb) blocks F) = Ok out ->
    Post out ->
    spatial_loop_gpu active pactive bactive warp time eps bn act p q r0 r1 r2 bw 0 (sp_blocks net) (x0, x1, x2) f (fun o =>
      CudaLayers.step (layer_output o p srt pad) Post).
  Proof using All.
    intros Ef Hx0 Hx1 Hx2 Hmid Ho HPost. rewrite (given_rows_ten feats p C F _ Hg HF) in Ef. injection Ef as <-.
    apply mk_spatial_inv in Enet as (t & bs & _ & -> & Ebs). cbn [sp_blocks].
    pose proof W0 as [(B & Hc & _) (ceps & CB & Hco) HD _ Hr0 Hne (Hcne & _)]. pose proof (cw_radius _ _ _ _ _ _ _ _ _ _ W1) as Hr1.
    pose proof (cw_radius _ _ _ _ _ _ _ _ _ _ W2) as Hr2.
    pose proof (cloud_is _ _ _ _ _ _ _ Hc) as Hi. pose proof (cloud_is _ _ _ _ _ _ _ Hco) as Hio.
    pose proof (ic_pts _ _ _ _ _ _ _ Hi) as Ep. pose proof (ic_dim _ _ _ _ _ _ _ Hi) as Ed. pose proof (ic_len _ _ _ _ _ _ _ Hi) as El.
    pose proof (ic_pts _ _ _ _ _ _ _ Hio) as Eq. pose proof (ic_dim _ _ _ _ _ _ _ Hio) as Edq. pose proof (ic_len _ _ _ _ _ _ _ Hio) as Elq.
    rewrite <- Ed in Ebs.
    apply (spatial_loop_gpu_ok active pactive bactive warp time eps ready0 inv1 ready2 down (middle at_) up bn act p q r0 r1 r2 bw C t args
      projection pw pb (length ids) (length cids)) with (n := blocks); auto.
    - rewrite Ep. exact El.
    - intros k l X x El' HX Hx. rewrite Ed in El'. split; [|intros Q].
      + apply (layer_block_gpu active pactive bactive warp time eps D r0 bw rows ids crows cids crows p q t C C (args (3 * k + 2)) (a (3 * k + 2)) l mx0 X r0 x (fun _ _ => True)); auto.
      + apply (layer_block_gpu active pactive bactive warp time eps D r0 bw rows ids crows cids crows p q t C C (args (3 * k + 2)) (a (3 * k + 2)) l mx0 X r0 x Q); auto.
    - intros k l X x El' HX Hx. rewrite Ed in El'. exact (Hmid t k l X x El' HX Hx).
    - intros k l X x El' HX Hx. rewrite Ed in El'. split; [|intros Q].
      + apply (layer_block_gpu active pactive bactive warp time eps D r2 bw crows cids rows ids rows q p t C C (args (3 * k)) (a (3 * k)) l mx2 X r2 x (fun _ _ => True)); auto.
      + apply (layer_block_gpu active pactive bactive warp time eps D r2 bw crows cids rows ids rows q p t C C (args (3 * k)) (a (3 * k)) l mx2 X r2 x Q); auto.
    - intros HY. exists out. split; [|exact HPost]. rewrite (rows_output _ _ _ _ _ _ HY). exact Ho.
  Qed.

  Lemma spatial_passed out (Post : feat -> Prop) :
    returned p srt pad C
      (residual_network (length ids) C (coarse_convolution bn act down (middle (fun i => i)) up) (shortcut projection (length ids) C pw pb) blocks F) = Ok out ->
    Post out ->
    mk_grid_gpu (active KKeys) warp eps p (repeat r0 D) (fun g0 => neighborhood_gpu active warp time g0 (repeat r0 D) (Some q) 0 (fun n0 =>
    mk_grid_gpu (active KKeys) warp eps q (repeat r1 D) (fun g1 => neighborhood_gpu active warp time g1 (repeat r1 D) (Some q) 0 (fun n1 =>
    mk_grid_gpu (active KKeys) warp eps q (repeat r2 D) (fun g2 => neighborhood_gpu active warp time g2 (repeat r2 D) (Some p) 0 (fun n2 =>
    spatial_gpu active pactive bactive warp time eps net bn act feats p q r0 r1 r2 (Some (DNbh n0 None, DNbh n1 None, DNbh n2 None)) bw srt pad Post)))))).
  Proof using All.
    intros Ho HPost. pose proof (proj2 (cw_centers _ _ _ _ _ _ _ _ _ _ W0)) as L0. pose proof (proj2 (cw_centers _ _ _ _ _ _ _ _ _ _ W2)) as L2.
    apply (passed_gpu active pactive bactive warp time eps Hdev D r0 bw Hb rows ids p crows cids q); [exact W0|exact L2|]. intros n0 Hn0 _ _ _ _.
    apply (passed_gpu active pactive bactive warp time eps Hdev D r1 bw Hb crows cids q crows cids q); [exact W1|exact L0|]. intros n1 Hn1 _ _ _ _.
    apply (passed_gpu active pactive bactive warp time eps Hdev D r2 bw Hb crows cids q rows ids p); [exact W2|exact L0|]. intros n2 Hn2 _ _ _ _.
    pose proof (given_rows_ten feats p C F _ Hg HF) as Ef. eexists. split; [exact Ef|]. cbv zeta.
    apply (spatial_core (fun i => i) (cready active pactive warp time D r1 bw crows cids crows cids) _ _ _ _ out Post Ef Hn0 Hn1 Hn2); [|exact Ho|exact HPost].
    intros t k l X x El' HX Hx.
    pose proof W0 as [_ (ceps & CB & Hco) HD _ _ _ (Hcne & _)]. pose proof (cw_radius _ _ _ _ _ _ _ _ _ _ W1) as Hr1.
    pose proof (cloud_is _ _ _ _ _ _ _ Hco) as Hio.
    pose proof (ic_pts _ _ _ _ _ _ _ Hio) as Eq. pose proof (ic_dim _ _ _ _ _ _ _ Hio) as Edq. pose proof (ic_len _ _ _ _ _ _ _ Hio) as Elq.
    split; [|intros Q].
    - apply (layer_block_gpu active pactive bactive warp time eps D r1 bw crows cids crows cids crows q q t C C (args (3 * k + 1)) (a (3 * k + 1)) l mx1 X r1 x (fun _ _ => True)); auto.
    - apply (layer_block_gpu active pactive bactive warp time eps D r1 bw crows cids crows cids crows q q t C C (args (3 * k + 1)) (a (3 * k + 1)) l mx1 X r1 x Q); auto.
  Qed.

  Lemma spatial_own B out (Post : feat -> Prop) : cloud GPU eps D crows cids B q -> (r0 == r2 -> r0 = r2)%Q ->
    returned p srt pad C
      (residual_network (length ids) C (coarse_convolution bn act down (middle (fun i => nth i (gpu_order eps D r1 crows cids B) 0)) up)
         (shortcut projection (length ids) C pw pb) blocks F) = Ok out ->
    Post out ->
    spatial_gpu active pactive bactive warp time eps net bn act feats p q r0 r1 r2 None bw srt pad Post.
  Proof using All.
    intros HcB Hr02 Ho HPost. pose proof (proj2 (cw_centers _ _ _ _ _ _ _ _ _ _ W0)) as L0. pose proof (proj2 (cw_centers _ _ _ _ _ _ _ _ _ _ W2)) as L2.
    pose proof (given_rows_ten feats p C F _ Hg HF) as Ef. eexists. split; [exact Ef|]. cbv zeta.
    replace (sp_dims net) with D by (pose proof Enet as E; apply mk_spatial_inv in E as (t & bs & _ & -> & _); reflexivity).
    unfold spatial_nbhs_gpu.
    apply (passed_gpu active pactive bactive warp time eps Hdev D r0 bw Hb rows ids p crows cids q); [exact W0|exact L2|]. intros n0 Hn0 E0 Es Er (B0 & Hc0).
    apply (own_gpu active pactive bactive warp time eps Hdev D r1 bw Hb crows cids q crows cids q B); [exact W1|exact L0|exact HcB|]. intros x1 Hx1.
    set (s := gpu_order eps D r1 crows cids B) in *.
    assert (Hfin : forall n2, ready2 (DNbh n2 None) ->
      spatial_loop_gpu active pactive bactive warp time eps bn act p q r0 r1 r2 bw 0 (sp_blocks net) (DNbh n0 None, x1, DNbh n2 None) (of_rows C F) (fun o =>
        CudaLayers.step (layer_output o p srt pad) Post)).
    { intros n2 Hn2.
      apply (spatial_core (fun i => nth i s 0) (cready active pactive warp time D r1 bw crows cids (map (fun i => nth i crows []) s) (map (fun i => nth i cids 0) s))
        _ _ _ _ out Post Ef Hn0 Hx1 Hn2); [|exact Ho|exact HPost].
      intros t k l X x El' HX Hx.
      pose proof W0 as [_ (ceps & CB & Hco) HD _ _ _ (Hcne & _)]. pose proof (cw_radius _ _ _ _ _ _ _ _ _ _ W1) as Hr1.
      pose proof (cloud_is _ _ _ _ _ _ _ Hco) as Hio.
      pose proof (ic_pts _ _ _ _ _ _ _ Hio) as Eq. pose proof (ic_dim _ _ _ _ _ _ _ Hio) as Edq. pose proof (ic_len _ _ _ _ _ _ _ Hio) as Elq.
      split; [|intros Q].
      - apply (own_block_gpu active pactive bactive warp time eps D r1 bw crows cids q t C (args (3 * k + 1)) (a (3 * k + 1)) l mx1 s (fun i => nth i s 0) X r1 x (fun _ _ => True)); auto.
        apply gpu_order_perm.
      - apply (own_block_gpu active pactive bactive warp time eps D r1 bw crows cids q t C (args (3 * k + 1)) (a (3 * k + 1)) l mx1 s (fun i => nth i s 0) X r1 x Q); auto.
        apply gpu_order_perm. }
    destruct (Qeq_bool r0 r2) eqn:E.
    - apply Qeq_bool_iff, Hr02 in E. unfold transpose_gpu. rewrite E0, Es, Er, E. rewrite E in Hfin.
      apply (centers_gpu active pactive bactive warp time eps Hdev D r2 bw Hb crows cids q rows ids p eps B0 (gcloud (ngrid n0))); [exact W2|exact L0|exact Hc0|].
      intros n2 Hn2 _ _ _ _. now apply Hfin.
    - apply (passed_gpu active pactive bactive warp time eps Hdev D r2 bw Hb crows cids q rows ids p); [exact W2|exact L0|]. intros n2 Hn2 _ _ _ _. now apply Hfin.
  Qed.
End Spatial.

(** C70, PointResNetSpatialBottleNeck with the three neighborhoods. *)
Lemma C70_spatial_partial_proof :
  forall active pactive bactive warp time eps D r0 r1 r2 rows ids p crows cids q name C blocks args a mx0 mx1 mx2 projection pw pb net bn act
         feats F bandwidth return_sorted return_padded out,
    device_ok active pactive bactive warp ->
    cuda_workable (scan_limit active warp) eps D r0 rows ids p crows cids q ->
    cuda_workable (scan_limit active warp) eps D r1 crows cids q crows cids q ->
    cuda_workable (scan_limit active warp) eps D r2 crows cids q rows ids p ->
    mk_spatial C blocks D name projection args pw pb = Ok net -> 0 < C ->
    (forall k, cuda_applicable C (args k) (a k)) -> (forall k, keeps_shape (bn k)) -> keeps_shape act ->
    given feats p C F -> matrix (length ids) C F -> (0 < bandwidth)%R ->
    let near0 := near_points D r0 rows ids crows cids in
    let near1 := near_points D r1 crows cids crows cids in
    let near2 := near_points D r2 crows cids rows ids in
    let dens0 := fun j => (density_factor D * density D (repeat bandwidth D) (repeat r0 D) rows ids j)%R in
    let dens1 := fun j => (density_factor D * density D (repeat bandwidth D) (repeat r1 D) crows cids j)%R in
    let dens2 := fun j => (density_factor D * density D (repeat bandwidth D) (repeat r2 D) crows cids j)%R in
    largest near0 (length cids) dens0 mx0 -> largest near1 (length cids) dens1 mx1 -> largest near2 (length ids) dens2 mx2 ->
    let down := fun k => layer_formula near0 D rows crows r0 dens0 mx0 (length cids) C C (args (3 * k + 2)) (a (3 * k + 2)) in
    let middle := fun k => layer_formula near1 D crows crows r1 dens1 mx1 (length cids) C C (args (3 * k + 1)) (a (3 * k + 1)) in
    let up := fun k => layer_formula near2 D crows rows r2 dens2 mx2 (length ids) C C (args (3 * k)) (a (3 * k)) in
    returned p return_sorted return_padded C
      (residual_network (length ids) C (coarse_convolution bn act down middle up) (shortcut projection (length ids) C pw pb) blocks F) = Ok out ->
    mk_grid_gpu (active KKeys) warp eps p (repeat r0 D) (fun g0 => neighborhood_gpu active warp time g0 (repeat r0 D) (Some q) 0 (fun n0 =>
    mk_grid_gpu (active KKeys) warp eps q (repeat r1 D) (fun g1 => neighborhood_gpu active warp time g1 (repeat r1 D) (Some q) 0 (fun n1 =>
    mk_grid_gpu (active KKeys) warp eps q (repeat r2 D) (fun g2 => neighborhood_gpu active warp time g2 (repeat r2 D) (Some p) 0 (fun n2 =>
    spatial_gpu active pactive bactive warp time eps net bn act feats p q r0 r1 r2 (Some (DNbh n0 None, DNbh n1 None, DNbh n2 None)) bandwidth
      return_sorted return_padded (fun o => o = out))))))).
Proof. intros. eapply spatial_passed; eauto. Qed.

(** C70, PointResNetSpatialBottleNeck without neighborhoods: the middle
    convolutions use the order of the grid of the coarse cloud. *)
Lemma C70_spatial_own_partial_proof :
  forall eps D r1 crows cids B q, cloud GPU eps D crows cids B q ->
  exists order, Permutation order (seq 0 (length cids)) /\
  forall active pactive bactive warp time r0 r2 rows ids p name C blocks args a mx0 mx1 mx2 projection pw pb net bn act
         feats F bandwidth return_sorted return_padded out,
    device_ok active pactive bactive warp ->
    cuda_workable (scan_limit active warp) eps D r0 rows ids p crows cids q ->
    cuda_workable (scan_limit active warp) eps D r1 crows cids q crows cids q ->
    cuda_workable (scan_limit active warp) eps D r2 crows cids q rows ids p -> (r0 == r2 -> r0 = r2)%Q ->
    mk_spatial C blocks D name projection args pw pb = Ok net -> 0 < C ->
    (forall k, cuda_applicable C (args k) (a k)) -> (forall k, keeps_shape (bn k)) -> keeps_shape act ->
    given feats p C F -> matrix (length ids) C F -> (0 < bandwidth)%R ->
    let near0 := near_points D r0 rows ids crows cids in
    let near1 := near_points D r1 crows cids crows cids in
    let near2 := near_points D r2 crows cids rows ids in
    let dens0 := fun j => (density_factor D * density D (repeat bandwidth D) (repeat r0 D) rows ids j)%R in
    let dens1 := fun j => (density_factor D * density D (repeat bandwidth D) (repeat r1 D) crows cids j)%R in
    let dens2 := fun j => (density_factor D * density D (repeat bandwidth D) (repeat r2 D) crows cids j)%R in
    largest near0 (length cids) dens0 mx0 -> largest near1 (length cids) dens1 mx1 -> largest near2 (length ids) dens2 mx2 ->
    let at_ := fun i => nth i order 0 in
    let down := fun k => layer_formula near0 D rows crows r0 dens0 mx0 (length cids) C C (args (3 * k + 2)) (a (3 * k + 2)) in
    let middle := fun k => layer_formula (fun i => near1 (at_ i)) D crows crows r1 dens1 (fun i => mx1 (at_ i)) (length cids) C C
                             (args (3 * k + 1)) (a (3 * k + 1)) in
    let up := fun k => layer_formula near2 D crows rows r2 dens2 mx2 (length ids) C C (args (3 * k)) (a (3 * k)) in
    returned p return_sorted return_padded C
      (residual_network (length ids) C (coarse_convolution bn act down middle up) (shortcut projection (length ids) C pw pb) blocks F) = Ok out ->
    spatial_gpu active pactive bactive warp time eps net bn act feats p q r0 r1 r2 None bandwidth return_sorted return_padded (fun o => o = out).
Proof.
  intros eps D r1 crows cids B q Hc. exists (gpu_order eps D r1 crows cids B). split; [apply gpu_order_perm|]. intros.
  eapply spatial_own; eauto.
Qed.

(** C70. With kernel points no call with a neighborhood returns: the blocks pass
    an argument that KPConv does not have (C51). *)
Lemma C70_kernel_points_refuted_proof :
  forall active pactive bactive warp time eps name C blocks D projection args pw pb bn act feats p q r r0 r1 r2 nb nbs bandwidth
         return_sorted return_padded P,
    means name ["kpconv"; "kp"; "kp_conv"]%string -> 0 < blocks ->
    (forall net, mk_resnet C blocks D name projection args pw pb = Ok net ->
     ~ resnet_gpu active pactive bactive warp time eps net bn act feats p r (Some nb) bandwidth return_sorted return_padded P) /\
    (forall net, mk_spatial C blocks D name projection args pw pb = Ok net ->
     ~ spatial_gpu active pactive bactive warp time eps net bn act feats p q r0 r1 r2 (Some nbs) bandwidth return_sorted return_padded P).
Proof.
  intros active pactive bactive warp time eps name C blocks D projection args pw pb bn act feats p q r r0 r1 r2 nb nbs bw srt pad P Hn Hb.
  destruct (names_ok name) as (_ & N2 & _). specialize (N2 Hn). destruct blocks as [|blocks]; [lia|].
  assert (Hk : forall k l, new_layer C C D TKP (args k) = Ok l -> exists c, l = LKP c).
  { intros k l. unfold new_layer. destruct (args k); try discriminate. destruct (mk_kpconv _ _ _ _ _ _ _ _ _ _); [|discriminate].
    cbn [bind]. injection 1 as <-. eauto. }
  split.
  - intros net E. apply mk_resnet_inv in E as (t & bs & Et & -> & Eb). rewrite N2 in Et. injection Et as <-.
    apply build_cons in Eb as (b & rest & -> & Eb & _).
    destruct (new_layer C C D TKP (args (2 * 0))) as [l1|] eqn:E1; [|discriminate]. cbn [bind] in Eb.
    destruct (new_layer C C D TKP (args (2 * 0 + 1))) as [l2|] eqn:E2; [|discriminate]. cbn [bind] in Eb.
    destruct (mk_shortcut projection C pw pb 0) as [s|]; [|discriminate]. injection Eb as <-.
    apply Hk in E1 as [c ->]. intros (f & _ & H). cbv zeta in H. cbn [rn_blocks resnet_loop_gpu] in H. destruct H as (t1 & _ & t2 & H & _). discriminate.
  - intros net E. apply mk_spatial_inv in E as (t & bs & Et & -> & Eb). rewrite N2 in Et. injection Et as <-.
    apply build_cons in Eb as (b & rest & -> & Eb & _).
    destruct (new_layer C C D TKP (args (3 * 0))) as [l1|] eqn:E1; [|discriminate]. cbn [bind] in Eb.
    destruct (new_layer C C D TKP (args (3 * 0 + 1))) as [l2|] eqn:E2; [|discriminate]. cbn [bind] in Eb.
    destruct (new_layer C C D TKP (args (3 * 0 + 2))) as [l3|] eqn:E3; [|discriminate]. cbn [bind] in Eb.
    destruct (mk_shortcut projection C pw pb 0) as [s|]; [|discriminate]. injection Eb as <-.
    apply Hk in E3 as [c ->]. intros (f & _ & H). cbv zeta in H. cbn [sp_blocks spatial_loop_gpu] in H. destruct nbs as ((x0 & x1) & x2).
    destruct H as (t1 & _ & t2 & H & _). discriminate.
Qed.

(** * The order of the points matters *)
Definition ex70_args : layer_args := AMC 1 [8] "relu" (fun _ _ => 0%R) (fun _ _ => 1%R) (fun _ => (1 / 8)%R).
Lemma ex70_applicable : cuda_applicable 1 ex70_args (fun x => Rmax 0 x).
Proof. split; [exact exB_activation|]. split; [now left|]. split; [lia|]. left. lia. Qed.
Lemma exB_cloud_ok : cloud GPU (1#1000) 2 exB_rows exB_ids 1 exB_cloud.
Proof. apply seg_cloud; repeat constructor. Qed.
Lemma ex70_workable limit : 3 <= limit -> cuda_workable limit (1#1000) 2 1 exB_rows exB_ids exB_cloud exB_rows exB_ids exB_cloud.
Proof.
  intros H. constructor; [exists 1; split; [exact exB_cloud_ok|repeat constructor]|exists (1#1000), 1; exact exB_cloud_ok|lia|left; lia|reflexivity|discriminate|split; [discriminate|exact H]].
Qed.
Lemma ex70_order : gpu_order (1#1000) 2 1 exB_rows exB_ids 1 = [1; 2; 0].
Proof. vm_compute. reflexivity. Qed.
Lemma ex70_layer nb rows dens mx n F f : (forall i, i < n -> nb i = [f i]) ->
  layer_formula nb 2 rows rows 1 dens mx n 1 1 ex70_args (fun x => Rmax 0 x) F = table n 1 (fun i _ => (fval F (f i) 0 / dens (f i))%R).
Proof.
  intros Hnb. unfold layer_formula, ex70_args, table. apply map_ext_in. intros i Hi. apply in_seq in Hi. apply map_ext_in. intros o Ho.
  unfold mc_formula_over, weighted_sum. rewrite Hnb by lia. cbn [last seq mlp]. unfold sum_over. cbn [map fold_right seq].
  rewrite !Rmax_right by (rewrite !Rmult_0_r; lra). unfold Rdiv. rewrite !Rmult_0_r. generalize (/ dens (f i))%R. intros v. field.
Qed.

(** C70. Without a neighborhood the result differs from that with the
    neighborhood of the cloud, if the points are not in the order of the grid. *)
Lemma C70_order_refuted_proof :
  exists eps rows ids p args net F,
    mk_resnet 1 1 2 "MCConv" false (fun _ => args) (fun _ _ => 0%R) (fun _ _ => 0%R) = Ok net /\
    given (Feat 1 (inr F)) p 1 F /\ matrix (length ids) 1 F /\
    forall active pactive bactive warp time bandwidth, device_ok active pactive bactive warp -> (0 < bandwidth)%R ->
      cuda_workable (scan_limit active warp) eps 2 1 rows ids p rows ids p /\
      exists out out', out <> out' /\
      resnet_gpu active pactive bactive warp time eps net (fun _ X => X) (fun X => X) (Feat 1 (inr F)) p 1 None bandwidth false false (fun o => o = out) /\
      mk_grid_gpu (active KKeys) warp eps p (repeat (1#1) 2) (fun g =>
      neighborhood_gpu active warp time g (repeat (1#1) 2) (Some p) 0 (fun n =>
      resnet_gpu active pactive bactive warp time eps net (fun _ X => X) (fun X => X) (Feat 1 (inr F)) p 1 (Some (DNbh n None)) bandwidth false false
        (fun o => o = out'))).
Proof.
  destruct (mk_resnet 1 1 2 "MCConv" false (fun _ => ex70_args) (fun _ _ => 0%R) (fun _ _ => 0%R)) as [net|] eqn:Enet; [|discriminate].
  exists (1#1000)%Q, exB_rows, exB_ids, exB_cloud, ex70_args, net, exB_F.
  split; [exact Enet|]. split; [exact exB_given|]. split; [exact exB_matrix|].
  intros active pactive bactive warp time bw Hdev Hb.
  assert (W : cuda_workable (scan_limit active warp) (1#1000) 2 1 exB_rows exB_ids exB_cloud exB_rows exB_ids exB_cloud).
  { apply ex70_workable. unfold scan_limit. apply Nat.le_trans with (2 ^ 8 * 2); [apply Nat.leb_le; reflexivity|apply Nat.le_add_r]. }
  split; [exact W|].
  set (dens := fun j => (density_factor 2 * density 2 (repeat bw 2) (repeat (1#1) 2) exB_rows exB_ids j)%R).
  assert (Hmx : largest (near_points 2 1 exB_rows exB_ids exB_rows exB_ids) 3 dens dens).
  { intros i Hi _. rewrite exB_near by exact Hi. split; [now left|]. constructor; [apply Rle_refl|constructor]. }
  assert (Hk : forall j : nat, keeps_shape (fun X : mat => X)) by (intros j m c X HX; exact HX).
  pose proof (fun out => C70_network_partial_proof active pactive bactive warp time (1#1000) 2 1 exB_rows exB_ids exB_cloud "MCConv" 1 1 (fun _ => ex70_args) (fun _ x => Rmax 0 x) dens
    false (fun _ _ => 0%R) (fun _ _ => 0%R) net (fun _ X => X) (fun X => X) (Feat 1 (inr exB_F)) exB_F bw false false out
    Hdev W Enet ltac:(lia) (fun _ => ex70_applicable) Hk (Hk 0) exB_given exB_matrix Hb Hmx) as Epass.
  pose proof (fun out => resnet_own active pactive bactive warp time (1#1000) 2 1 exB_rows exB_ids 1 exB_cloud "MCConv" 1 1 (fun _ => ex70_args) (fun _ x => Rmax 0 x) dens
    false (fun _ _ => 0%R) (fun _ _ => 0%R) net (fun _ X => X) (fun X => X) (Feat 1 (inr exB_F)) exB_F bw false false out (fun o => o = out)
    Hdev exB_cloud_ok W Enet ltac:(lia) (fun _ => ex70_applicable) Hk (Hk 0) exB_given exB_matrix Hb Hmx) as Eown.
  cbv zeta in Epass, Eown. rewrite ex70_order in Eown. unfold returned in Epass, Eown. cbn [format_output snd] in Epass, Eown.
  eexists. eexists. split; [|split; [apply Eown; reflexivity|apply Epass; reflexivity]]. clear Epass Eown. intros E.
  apply (f_equal (fun o => match o with Feat _ (inr T) => fval T 0 0 | _ => 0%R end)) in E. cbv beta iota in E.
  unfold residual_network in E. cbn [seq fold_left] in E. unfold mat_add in E. rewrite !fval_table in E by (cbn; lia).
  unfold two_convolutions, preactivation in E. change (length exB_ids) with 3 in E.
  rewrite !(ex70_layer (near_points 2 1 exB_rows exB_ids exB_rows exB_ids) exB_rows _ _ 3 _ (fun i => i)) in E by (apply exB_near).
  rewrite !(ex70_layer (fun i => near_points 2 1 exB_rows exB_ids exB_rows exB_ids (nth i [1; 2; 0] 0)) exB_rows _ _ 3 _ (fun i => nth i [1; 2; 0] 0)) in E
    by (intros i Hi; apply exB_near; do 3 (destruct i as [|i]; [cbn; lia|]); lia).
  rewrite ?fval_table in E by (cbn; lia). cbn [nth] in E. fold dens in E.
  rewrite ?fval_table in E by (cbn; lia). cbn [nth] in E.
  assert (D0 : (0 < dens 0%nat)%R).
  { unfold dens. apply Rmult_lt_0_compat; [|exact (exB_dens bw Hb 0 ltac:(lia))]. pose proof (C70_factor_proof 2 ltac:(lia)). lra. }
  unfold fval, exB_F, shortcut in E. cbn [nth] in E.
  assert (0 < 1 / dens 0%nat / dens 0%nat)%R by (apply Rdiv_lt_0_compat; [apply Rdiv_lt_0_compat|]; lra). unfold Rdiv in *. rewrite !Rmult_0_l in E. unfold dens in *. lra.
Qed.

(** * Examples *)
Example C70_factor_ex_proof : density_factor 3 = ((0.39894228 * sqrt (2 * PI)) ^ 3)%R /\ 3 <= 6.
Proof. split; [reflexivity|lia]. Qed.
Lemma ex70_point_applicable k : cuda_applicable 2 (exB_point k) leaky.
Proof.
  split; [right; left; split; [apply means_lower; [repeat constructor|right; right; now left]|reflexivity]|].
  split; [now left|]. split; [lia|]. left. lia.
Qed.
Lemma exN_p_cloud : cloud GPU (1#1000) 2 exN_rows exN_ids 2 exN_p.
Proof. apply seg_cloud; repeat constructor. Qed.
Lemma exN_q_cloud : cloud GPU (1#1000) 2 exN_centers exN_cids 2 exN_q.
Proof. apply seg_cloud; repeat constructor. Qed.

(** Two blocks of PointConv layers with projections on six points in two batch
    elements with two features. *)
Example C70_network_partial_ex_proof : exists net mx out,
  device_ok ex55_active 3 5 32 /\
  cuda_workable (scan_limit ex55_active 32) (1#1000) 2 1 exN_rows exN_ids exN_p exN_rows exN_ids exN_p /\
  mk_resnet 2 2 2 "PointConv" true exB_point (fun k idx => INR (k + hd 0 idx)) (fun _ _ => 1%R) = Ok net /\
  (forall k, cuda_applicable 2 (exB_point k) leaky) /\ keeps_shape (map (map (Rmax 0))) /\
  given (Feat 2 (inr exN_F)) exN_p 2 exN_F /\ matrix 6 2 exN_F /\
  let dens := fun j => (density_factor 2 * density 2 (repeat 1%R 2) (repeat (1#1) 2) exN_rows exN_ids j)%R in
  let near := near_points 2 1 exN_rows exN_ids exN_rows exN_ids in
  largest near 6 dens mx /\
  map near (seq 0 6) = [[0; 1]; [0; 1]; [2]; [3]; [4; 5]; [4; 5]] /\
  returned exN_p false false 2
    (residual_network 6 2 (two_convolutions (fun _ X => X) (map (map (Rmax 0))) (fun k => layer_formula near 2 exN_rows exN_rows 1 dens mx 6 2 2 (exB_point k) leaky))
      (shortcut true 6 2 (fun k idx => INR (k + hd 0 idx)) (fun _ _ => 1%R)) 2 exN_F) = Ok out /\
  forall time,
    mk_grid_gpu (ex55_active KKeys) 32 (1#1000) exN_p (repeat (1#1) 2) (fun g =>
    neighborhood_gpu ex55_active 32 time g (repeat (1#1) 2) (Some exN_p) 0 (fun n =>
    resnet_gpu ex55_active 3 5 32 time (1#1000) net (fun _ X => X) (map (map (Rmax 0))) (Feat 2 (inr exN_F)) exN_p 1 (Some (DNbh n None)) 1 false false
      (fun o => o = out))).
Proof.
  destruct (largest_exists (near_points 2 1 exN_rows exN_ids exN_rows exN_ids) 6
    (fun j => (density_factor 2 * density 2 (repeat 1%R 2) (repeat (1#1) 2) exN_rows exN_ids j)%R)) as [mx Hmx].
  destruct (mk_resnet 2 2 2 "PointConv" true exB_point (fun k idx => INR (k + hd 0 idx)) (fun _ _ => 1%R)) as [net|] eqn:Enet; [|discriminate].
  exists net, mx. eexists. split; [exact ex55_device|]. split; [exact ex55_workable|]. split; [reflexivity|]. split; [exact ex70_point_applicable|].
  split; [exact relu_keeps|]. split; [exact exN_given|]. split; [exact exN_matrix|]. cbv zeta. split; [exact Hmx|]. split; [vm_compute; reflexivity|].
  split; [unfold returned; cbn [format_output snd]; reflexivity|]. intros time.
  exact (C70_network_partial_proof ex55_active 3 5 32 time (1#1000) 2 1 exN_rows exN_ids exN_p "PointConv" 2 2 exB_point (fun _ => leaky) mx true
    (fun k idx => INR (k + hd 0 idx)) (fun _ _ => 1%R) net (fun _ X => X) (map (map (Rmax 0))) (Feat 2 (inr exN_F)) exN_F 1%R false false _
    ex55_device ex55_workable Enet ltac:(lia) ex70_point_applicable (fun _ => identity_keeps) relu_keeps exN_given exN_matrix Rlt_0_1 Hmx eq_refl).
Qed.

(** The same without a neighborhood; the order is not that of the points. *)
Example C70_own_neighborhood_partial_ex_proof : exists net mx order out,
  cloud GPU (1#1000) 2 exN_rows exN_ids 2 exN_p /\ device_ok ex55_active 3 5 32 /\
  cuda_workable (scan_limit ex55_active 32) (1#1000) 2 1 exN_rows exN_ids exN_p exN_rows exN_ids exN_p /\
  mk_resnet 2 2 2 "PointConv" true exB_point (fun k idx => INR (k + hd 0 idx)) (fun _ _ => 1%R) = Ok net /\
  order = [4; 5; 3; 2; 0; 1] /\
  let dens := fun j => (density_factor 2 * density 2 (repeat 1%R 2) (repeat (1#1) 2) exN_rows exN_ids j)%R in
  let near := near_points 2 1 exN_rows exN_ids exN_rows exN_ids in
  let at_ := fun i => nth i order 0 in
  largest near 6 dens mx /\
  returned exN_p false false 2
    (residual_network 6 2 (two_convolutions (fun _ X => X) (map (map (Rmax 0)))
        (fun k => layer_formula (fun i => near (at_ i)) 2 exN_rows exN_rows 1 dens (fun i => mx (at_ i)) 6 2 2 (exB_point k) leaky))
      (shortcut true 6 2 (fun k idx => INR (k + hd 0 idx)) (fun _ _ => 1%R)) 2 exN_F) = Ok out /\
  forall time,
    resnet_gpu ex55_active 3 5 32 time (1#1000) net (fun _ X => X) (map (map (Rmax 0))) (Feat 2 (inr exN_F)) exN_p 1 None 1 false false
      (fun o => o = out).
Proof.
  destruct (largest_exists (near_points 2 1 exN_rows exN_ids exN_rows exN_ids) 6
    (fun j => (density_factor 2 * density 2 (repeat 1%R 2) (repeat (1#1) 2) exN_rows exN_ids j)%R)) as [mx Hmx].
  destruct (mk_resnet 2 2 2 "PointConv" true exB_point (fun k idx => INR (k + hd 0 idx)) (fun _ _ => 1%R)) as [net|] eqn:Enet; [|discriminate].
  exists net, mx, (gpu_order (1#1000) 2 1 exN_rows exN_ids 2). eexists. split; [exact exN_p_cloud|]. split; [exact ex55_device|].
  split; [exact ex55_workable|]. split; [reflexivity|]. split; [vm_compute; reflexivity|].
  cbv zeta. split; [exact Hmx|].
  split; [unfold returned; cbn [format_output snd]; reflexivity|]. intros time.
  exact (resnet_own ex55_active 3 5 32 time (1#1000) 2 1 exN_rows exN_ids 2 exN_p "PointConv" 2 2 exB_point (fun _ => leaky) mx true
    (fun k idx => INR (k + hd 0 idx)) (fun _ _ => 1%R) net (fun _ X => X) (map (map (Rmax 0))) (Feat 2 (inr exN_F)) exN_F 1%R false false _ _
    ex55_device exN_p_cloud ex55_workable Enet ltac:(lia) ex70_point_applicable (fun _ => identity_keeps) relu_keeps exN_given exN_matrix Rlt_0_1 Hmx eq_refl eq_refl).
Qed.

(** From six points to five and back, with and without the neighborhoods. *)
Lemma ex70_down : cuda_workable (scan_limit ex55_active 32) (1#1000) 2 1 exN_rows exN_ids exN_p exN_centers exN_cids exN_q.
Proof.
  constructor; [exists 2; split; [exact exN_p_cloud|repeat constructor]|exists (1#1000), 2; exact exN_q_cloud|lia|left; lia|reflexivity|discriminate|].
  split; [discriminate|cbn; lia].
Qed.
Lemma ex70_middle : cuda_workable (scan_limit ex55_active 32) (1#1000) 2 1 exN_centers exN_cids exN_q exN_centers exN_cids exN_q.
Proof.
  constructor; [exists 2; split; [exact exN_q_cloud|repeat constructor]|exists (1#1000), 2; exact exN_q_cloud|lia|left; lia|reflexivity|discriminate|].
  split; [discriminate|cbn; lia].
Qed.
Lemma ex70_up : cuda_workable (scan_limit ex55_active 32) (1#1000) 2 1 exN_centers exN_cids exN_q exN_rows exN_ids exN_p.
Proof.
  constructor; [exists 2; split; [exact exN_q_cloud|repeat constructor]|exists (1#1000), 2; exact exN_p_cloud|lia|left; lia|reflexivity|discriminate|].
  split; [discriminate|cbn; lia].
Qed.
Definition ex70_dens (rows : list point) (ids : list nat) (j : nat) : R :=
  (density_factor 2 * density 2 (repeat 1%R 2) (repeat (1#1)%Q 2) rows ids j)%R.

Example C70_spatial_partial_ex_proof : exists net mx0 mx1 mx2 out,
  device_ok ex55_active 3 5 32 /\
  cuda_workable (scan_limit ex55_active 32) (1#1000) 2 1 exN_rows exN_ids exN_p exN_centers exN_cids exN_q /\
  cuda_workable (scan_limit ex55_active 32) (1#1000) 2 1 exN_centers exN_cids exN_q exN_centers exN_cids exN_q /\
  cuda_workable (scan_limit ex55_active 32) (1#1000) 2 1 exN_centers exN_cids exN_q exN_rows exN_ids exN_p /\
  mk_spatial 2 2 2 "PointConv" true exB_point (fun k idx => INR (k + hd 0 idx)) (fun _ _ => 1%R) = Ok net /\
  let near0 := near_points 2 1 exN_rows exN_ids exN_centers exN_cids in
  let near1 := near_points 2 1 exN_centers exN_cids exN_centers exN_cids in
  let near2 := near_points 2 1 exN_centers exN_cids exN_rows exN_ids in
  let fine := ex70_dens exN_rows exN_ids in
  let coarse := ex70_dens exN_centers exN_cids in
  largest near0 5 fine mx0 /\ largest near1 5 coarse mx1 /\ largest near2 6 coarse mx2 /\
  returned exN_p false false 2
    (residual_network 6 2 (coarse_convolution (fun _ X => X) (map (map (Rmax 0)))
        (fun k => layer_formula near0 2 exN_rows exN_centers 1 fine mx0 5 2 2 (exB_point (3 * k + 2)) leaky)
        (fun k => layer_formula near1 2 exN_centers exN_centers 1 coarse mx1 5 2 2 (exB_point (3 * k + 1)) leaky)
        (fun k => layer_formula near2 2 exN_centers exN_rows 1 coarse mx2 6 2 2 (exB_point (3 * k)) leaky))
      (shortcut true 6 2 (fun k idx => INR (k + hd 0 idx)) (fun _ _ => 1%R)) 2 exN_F) = Ok out /\
  forall time,
    mk_grid_gpu (ex55_active KKeys) 32 (1#1000) exN_p (repeat (1#1) 2) (fun g0 => neighborhood_gpu ex55_active 32 time g0 (repeat (1#1) 2) (Some exN_q) 0 (fun n0 =>
    mk_grid_gpu (ex55_active KKeys) 32 (1#1000) exN_q (repeat (1#1) 2) (fun g1 => neighborhood_gpu ex55_active 32 time g1 (repeat (1#1) 2) (Some exN_q) 0 (fun n1 =>
    mk_grid_gpu (ex55_active KKeys) 32 (1#1000) exN_q (repeat (1#1) 2) (fun g2 => neighborhood_gpu ex55_active 32 time g2 (repeat (1#1) 2) (Some exN_p) 0 (fun n2 =>
    spatial_gpu ex55_active 3 5 32 time (1#1000) net (fun _ X => X) (map (map (Rmax 0))) (Feat 2 (inr exN_F)) exN_p exN_q 1 1 1
      (Some (DNbh n0 None, DNbh n1 None, DNbh n2 None)) 1 false false (fun o => o = out))))))).
Proof.
  destruct (largest_exists (near_points 2 1 exN_rows exN_ids exN_centers exN_cids) 5 (ex70_dens exN_rows exN_ids)) as [mx0 M0].
  destruct (largest_exists (near_points 2 1 exN_centers exN_cids exN_centers exN_cids) 5 (ex70_dens exN_centers exN_cids)) as [mx1 M1].
  destruct (largest_exists (near_points 2 1 exN_centers exN_cids exN_rows exN_ids) 6 (ex70_dens exN_centers exN_cids)) as [mx2 M2].
  destruct (mk_spatial 2 2 2 "PointConv" true exB_point (fun k idx => INR (k + hd 0 idx)) (fun _ _ => 1%R)) as [net|] eqn:Enet; [|discriminate].
  exists net, mx0, mx1, mx2. eexists. split; [exact ex55_device|]. split; [exact ex70_down|]. split; [exact ex70_middle|]. split; [exact ex70_up|]. split; [reflexivity|].
  cbv zeta. split; [exact M0|]. split; [exact M1|]. split; [exact M2|].
  split; [unfold returned; cbn [format_output snd]; reflexivity|]. intros time.
  exact (C70_spatial_partial_proof ex55_active 3 5 32 time (1#1000) 2 1 1 1 exN_rows exN_ids exN_p exN_centers exN_cids exN_q "PointConv" 2 2 exB_point
    (fun _ => leaky) mx0 mx1 mx2 true (fun k idx => INR (k + hd 0 idx)) (fun _ _ => 1%R) net (fun _ X => X) (map (map (Rmax 0))) (Feat 2 (inr exN_F)) exN_F 1%R false false _
    ex55_device ex70_down ex70_middle ex70_up Enet ltac:(lia) ex70_point_applicable (fun _ => identity_keeps) relu_keeps exN_given exN_matrix Rlt_0_1 M0 M1 M2 eq_refl).
Qed.

Example C70_spatial_own_partial_ex_proof : exists net mx0 mx1 mx2 order out,
  cloud GPU (1#1000) 2 exN_centers exN_cids 2 exN_q /\ device_ok ex55_active 3 5 32 /\
  mk_spatial 2 2 2 "PointConv" true exB_point (fun k idx => INR (k + hd 0 idx)) (fun _ _ => 1%R) = Ok net /\
  Permutation order (seq 0 5) /\ order <> seq 0 5 /\
  let near0 := near_points 2 1 exN_rows exN_ids exN_centers exN_cids in
  let near1 := near_points 2 1 exN_centers exN_cids exN_centers exN_cids in
  let near2 := near_points 2 1 exN_centers exN_cids exN_rows exN_ids in
  let fine := ex70_dens exN_rows exN_ids in
  let coarse := ex70_dens exN_centers exN_cids in
  let at_ := fun i => nth i order 0 in
  largest near0 5 fine mx0 /\ largest near1 5 coarse mx1 /\ largest near2 6 coarse mx2 /\
  returned exN_p false false 2
    (residual_network 6 2 (coarse_convolution (fun _ X => X) (map (map (Rmax 0)))
        (fun k => layer_formula near0 2 exN_rows exN_centers 1 fine mx0 5 2 2 (exB_point (3 * k + 2)) leaky)
        (fun k => layer_formula (fun i => near1 (at_ i)) 2 exN_centers exN_centers 1 coarse (fun i => mx1 (at_ i)) 5 2 2 (exB_point (3 * k + 1)) leaky)
        (fun k => layer_formula near2 2 exN_centers exN_rows 1 coarse mx2 6 2 2 (exB_point (3 * k)) leaky))
      (shortcut true 6 2 (fun k idx => INR (k + hd 0 idx)) (fun _ _ => 1%R)) 2 exN_F) = Ok out /\
  forall time,
    spatial_gpu ex55_active 3 5 32 time (1#1000) net (fun _ X => X) (map (map (Rmax 0))) (Feat 2 (inr exN_F)) exN_p exN_q 1 1 1 None 1 false false
      (fun o => o = out).
Proof.
  destruct (largest_exists (near_points 2 1 exN_rows exN_ids exN_centers exN_cids) 5 (ex70_dens exN_rows exN_ids)) as [mx0 M0].
  destruct (largest_exists (near_points 2 1 exN_centers exN_cids exN_centers exN_cids) 5 (ex70_dens exN_centers exN_cids)) as [mx1 M1].
  destruct (largest_exists (near_points 2 1 exN_centers exN_cids exN_rows exN_ids) 6 (ex70_dens exN_centers exN_cids)) as [mx2 M2].
  destruct (mk_spatial 2 2 2 "PointConv" true exB_point (fun k idx => INR (k + hd 0 idx)) (fun _ _ => 1%R)) as [net|] eqn:Enet; [|discriminate].
  exists net, mx0, mx1, mx2, (gpu_order (1#1000) 2 1 exN_centers exN_cids 2). eexists. split; [exact exN_q_cloud|]. split; [exact ex55_device|]. split; [reflexivity|].
  split; [apply (gpu_order_perm (1#1000) 2 1 exN_centers exN_cids 2)|]. split; [vm_compute; discriminate|].
  cbv zeta. split; [exact M0|]. split; [exact M1|]. split; [exact M2|].
  split; [unfold returned; cbn [format_output snd]; reflexivity|]. intros time.
  exact (spatial_own ex55_active 3 5 32 time (1#1000) ex55_device 2 1 1 1 exN_rows exN_ids exN_p exN_centers exN_cids exN_q ex70_down ex70_middle ex70_up
    "PointConv" 2 2 exB_point
    (fun _ => leaky) mx0 mx1 mx2 true (fun k idx => INR (k + hd 0 idx)) (fun _ _ => 1%R) net (fun _ X => X) (map (map (Rmax 0))) (Feat 2 (inr exN_F)) exN_F 1%R false false
    Enet ltac:(lia) ex70_point_applicable (fun _ => identity_keeps) relu_keeps exN_given exN_matrix Rlt_0_1 M0 M1 M2 2 _ _ exN_q_cloud (fun _ => eq_refl) eq_refl eq_refl).
Qed.

(** The witness: three points in one row, more than the radius apart, which the
    grid orders differently. *)
Example C70_order_refuted_ex_proof :
  gpu_order (1#1000) 2 1 exB_rows exB_ids 1 = [1; 2; 0] /\ exB_rows = [[0; 0]; [4#1; 0]; [2#1; 0]]%Q /\ exB_F = [[1%R]; [0%R]; [0%R]].
Proof. split; [exact ex70_order|]. split; reflexivity. Qed.

(** The constructor accepts kernel points. *)
Example C70_kernel_points_refuted_ex_proof : exists net,
  means "KPConv" ["kpconv"; "kp"; "kp_conv"]%string /\
  mk_resnet 2 1 2 "KPConv" false (fun _ => exB_kernel) (fun _ _ => 1%R) (fun _ _ => 1%R) = Ok net.
Proof.
  destruct (mk_resnet 2 1 2 "KPConv" false (fun _ => exB_kernel) (fun _ _ => 1%R) (fun _ _ => 1%R)) as [net|] eqn:E; [|cbn in E; discriminate].
  exists net. split; [apply means_lower; [repeat constructor|now left]|reflexivity].
Qed.
