(** The residual networks (C51-C53).
    Generated by tools/gen_props.py from BlockProofs.v: statements only. *)
From Coq Require Import String List Arith ZArith QArith Reals Qreals Lia Lra Bool Permutation.
From Verif Require Import Tensor TensorFacts Spec SpecText TextFacts PointCloud SpecCloud PointCloudFacts QFacts Grid SpecGrid GridFacts
  Neighbors SpecNeighbors NeighborFacts NeighborProofs Neighborhood NeighborhoodFacts NeighborhoodProofs
  Sampling SpecSampling SamplingFacts SamplingProofs Hierarchy SpecHierarchy HierarchyFacts Pdf SpecPdf PdfFacts PdfProofs
  RTensor RTensorFacts Layers SpecLayers LayerFacts LayerLink LayerProofs ConvProofs Blocks SpecBlocks BlockFacts.
From Verif Require Import BlockProofs.
Import ListNotations.
Local Open Scope nat_scope.

(** C51, PointResNet with a neighborhood of the cloud: every block adds two
    convolutions of the points within the radius, each after normalisation and
    activation, to the (projected) features. *)
Theorem C51_network_partial :
  forall eps D r rows ids p g n name C blocks args a mx projection pw pb net bn act feats F bandwidth return_sorted return_padded,
    workable eps D r rows ids p rows ids p ->
    mk_grid GPU eps p (repeat r D) = Ok g -> snd (mk_nbh (find_neighbors_tf GPU) g (repeat r D) (Some p) 0) = Ok n ->
    mk_resnet C blocks D name projection args pw pb = Ok net -> 0 < C ->
    (forall k, applicable (length ids) (args k) (a k)) -> (forall k, keeps_shape (bn k)) -> keeps_shape act ->
    given feats p C F -> matrix (length ids) C F -> (0 < bandwidth)%R ->
    let near := near_points D r rows ids rows ids in
    let dens := density D (repeat bandwidth D) (repeat r D) rows ids in
    largest near (length ids) dens mx ->
    let conv := fun k => layer_formula near D rows rows r dens mx (length ids) C C (args k) (a k) in
    resnet_call GPU eps (find_neighbors_tf GPU) (compute_pdf_tf GPU) net bn act feats p r (Some (DNbh n None)) bandwidth
      return_sorted return_padded
    = returned p return_sorted return_padded C
        (residual_network (length ids) C (two_convolutions bn act conv) (shortcut projection (length ids) C pw pb) blocks F).
Proof. exact C51_network_partial_proof. Qed.
Print Assumptions C51_network_partial.

(** C51, PointResNet without a neighborhood: the convolutions take the neighbors
    of output point [i] around the [i]-th point in the order of the grid; the
    result is that of the first theorem if the points are in this order. *)
Theorem C51_own_neighborhood_partial :
  forall eps D r rows ids p name C blocks args a mx projection pw pb net bn act feats F bandwidth return_sorted return_padded,
    workable eps D r rows ids p rows ids p ->
    mk_resnet C blocks D name projection args pw pb = Ok net -> 0 < C ->
    (forall k, applicable (length ids) (args k) (a k)) -> (forall k, keeps_shape (bn k)) -> keeps_shape act ->
    given feats p C F -> matrix (length ids) C F -> (0 < bandwidth)%R ->
    let near := near_points D r rows ids rows ids in
    let dens := density D (repeat bandwidth D) (repeat r D) rows ids in
    largest near (length ids) dens mx ->
    exists g, mk_grid GPU eps p (repeat r D) = Ok g /\ Permutation (gsidx g) (seq 0 (length ids)) /\
    let conv := fun at_ k => layer_formula (fun i => near (at_ i)) D rows rows r dens (fun i => mx (at_ i)) (length ids) C C (args k) (a k) in
    let result := fun at_ => returned p return_sorted return_padded C
        (residual_network (length ids) C (two_convolutions bn act (conv at_)) (shortcut projection (length ids) C pw pb) blocks F) in
    let call := resnet_call GPU eps (find_neighbors_tf GPU) (compute_pdf_tf GPU) net bn act feats p r None bandwidth
      return_sorted return_padded in
    call = result (fun i => nth i (gsidx g) 0) /\
    (gsidx g = seq 0 (length ids) -> call = result (fun i => i)).
Proof. exact C51_own_neighborhood_partial_proof. Qed.
Print Assumptions C51_own_neighborhood_partial.

(** C51, C52, C53: the accepted names of layer types (in any case), and the
    error for other names. *)
Theorem C51_names :
  forall name C M blocks D projection args pw pb dw db uw ub,
    (~ means name ["mcconv"; "mc"; "mc_conv"; "kpconv"; "kp"; "kp_conv"; "pointconv"; "point_conv"]%string ->
     mk_resnet C blocks D name projection args pw pb = Err KeyError /\
     mk_bottle_neck C M blocks D name projection args pw pb dw db uw ub = Err KeyError /\
     mk_spatial C blocks D name projection args pw pb = Err KeyError) /\
    (0 < C -> 0 < D ->
     (means name ["pointconv"; "point_conv"]%string /\ (forall k, exists hidden act axis bias w w1 b1 w2 b2, args k = APT hidden act axis bias w w1 b1 w2 b2) \/
      means name ["mcconv"; "mc"; "mc_conv"]%string /\ (forall k, exists mlps sizes act w b fw, args k = AMC mlps sizes act w b fw /\
         0 < mlps /\ C mod mlps = 0 /\ sizes <> [] /\ Forall (fun s => 0 < s) sizes)) ->
     (exists net, mk_resnet C blocks D name projection args pw pb = Ok net) /\
     (exists net, mk_spatial C blocks D name projection args pw pb = Ok net)).
Proof. exact C51_names_proof. Qed.
Print Assumptions C51_names.

(** C51, C53. Networks of kernel point convolutions can be made but not
    applied. *)
Theorem C51_kernel_points_refuted :
  forall dev eps search kde name C blocks D projection args pw pb bn act feats p q r r0 r1 r2 nb nbs bandwidth return_sorted return_padded,
    means name ["kpconv"; "kp"; "kp_conv"]%string -> 0 < blocks ->
    (forall net, mk_resnet C blocks D name projection args pw pb = Ok net ->
     forall out, resnet_call dev eps search kde net bn act feats p r nb bandwidth return_sorted return_padded <> Ok out) /\
    (forall net, mk_spatial C blocks D name projection args pw pb = Ok net ->
     forall out, spatial_call dev eps search kde net bn act feats p q r0 r1 r2 nbs bandwidth return_sorted return_padded <> Ok out).
Proof. exact C51_kernel_points_refuted_proof. Qed.
Print Assumptions C51_kernel_points_refuted.

(** C52. The network with a bottle neck in the features cannot be made, except
    without any block. *)
Theorem C52_constructor_refuted :
  forall C M blocks D name projection args pw pb dw db uw ub,
    (0 < blocks -> forall net, mk_bottle_neck C M blocks D name projection args pw pb dw db uw ub <> Ok net) /\
    (forall t l, 0 < blocks -> 0 < C -> layer_types name = Ok t -> new_layer M M D t (args 0) = Ok l ->
      mk_bottle_neck C M blocks D name projection args pw pb dw db uw ub = Err TypeError) /\
    (forall t, layer_types name = Ok t -> mk_bottle_neck C M 0 D name projection args pw pb dw db uw ub = Ok (BottleNeck D [])).
Proof. exact C52_constructor_refuted_proof. Qed.
Print Assumptions C52_constructor_refuted.

(** C52: what the calls of such a network compute, were its 1x1 convolutions
    made without the argument [use_bias]. The neighbors of output point [i] are
    those of the point [at_ i]: point [i] if a neighborhood is passed, the [i]-th
    point in the order of the grid otherwise. *)
Theorem C52_call_partial :
  forall eps D r rows ids p g n t C M bs args a mx projection pw pb dw db uw ub bn act feats F bandwidth return_sorted return_padded nb at_,
    workable eps D r rows ids p rows ids p ->
    mk_grid GPU eps p (repeat r D) = Ok g -> snd (mk_nbh (find_neighbors_tf GPU) g (repeat r D) (Some p) 0) = Ok n ->
    (nb = Some (DNbh n None) /\ at_ = (fun i => i) \/ nb = None /\ at_ = (fun i => nth i (gsidx g) 0)) ->
    (forall k, k < length bs -> exists l s d u, nth_error bs k = Some (l, s, d, u) /\
       new_layer M M D t (args k) = Ok l /\ mk_shortcut projection C pw pb k = Ok s /\
       mk_conv1x1 C M (dw k) (db k) = Ok d /\ mk_conv1x1 M C (uw k) (ub k) = Ok u) -> 0 < M ->
    (forall k, applicable (length ids) (args k) (a k)) -> (forall k, keeps_shape (bn k)) -> keeps_shape act ->
    given feats p C F -> matrix (length ids) C F -> (0 < bandwidth)%R ->
    let near := near_points D r rows ids rows ids in
    let dens := density D (repeat bandwidth D) (repeat r D) rows ids in
    largest near (length ids) dens mx ->
    let conv := fun k => layer_formula (fun i => near (at_ i)) D rows rows r dens (fun i => mx (at_ i)) (length ids) M M (args k) (a k) in
    bottle_neck_call GPU eps (find_neighbors_tf GPU) (compute_pdf_tf GPU) (BottleNeck D bs) bn act feats p r nb bandwidth
      return_sorted return_padded
    = returned p return_sorted return_padded C
        (residual_network (length ids) C (narrow_convolution bn act (length ids) C M dw db uw ub conv)
           (shortcut projection (length ids) C pw pb) (length bs) F).
Proof. exact C52_call_partial_proof. Qed.
Print Assumptions C52_call_partial.

(** C53, PointResNetSpatialBottleNeck: every block adds a convolution to the
    downsampled cloud, one inside of it and one back to the points. With the
    three neighborhoods passed, the middle convolution takes the neighbors of
    each downsampled point; without them it takes those of the point at the
    same place in the order of the grid ([at_]). *)
Theorem C53_network_partial :
  forall eps D r0 r1 r2 rows ids p crows cids q g0 n0 g1 n1 g2 n2 name C blocks args a mx0 mx1 mx2 projection pw pb net bn act
         feats F bandwidth return_sorted return_padded nbs at_,
    workable eps D r0 rows ids p crows cids q -> workable eps D r1 crows cids q crows cids q ->
    workable eps D r2 crows cids q rows ids p ->
    mk_grid GPU eps p (repeat r0 D) = Ok g0 -> snd (mk_nbh (find_neighbors_tf GPU) g0 (repeat r0 D) (Some q) 0) = Ok n0 ->
    mk_grid GPU eps q (repeat r1 D) = Ok g1 -> snd (mk_nbh (find_neighbors_tf GPU) g1 (repeat r1 D) (Some q) 0) = Ok n1 ->
    mk_grid GPU eps q (repeat r2 D) = Ok g2 -> snd (mk_nbh (find_neighbors_tf GPU) g2 (repeat r2 D) (Some p) 0) = Ok n2 ->
    (nbs = Some (DNbh n0 None, DNbh n1 None, DNbh n2 None) /\ at_ = (fun i => i) \/
     nbs = None /\ at_ = (fun i => nth i (gsidx g1) 0)) ->
    (r0 == r2 -> r0 = r2)%Q ->
    mk_spatial C blocks D name projection args pw pb = Ok net -> 0 < C ->
    (forall k, applicable (length cids) (args k) (a k) /\ applicable (length ids) (args k) (a k)) ->
    (forall k, keeps_shape (bn k)) -> keeps_shape act ->
    given feats p C F -> matrix (length ids) C F -> (0 < bandwidth)%R ->
    let near0 := near_points D r0 rows ids crows cids in
    let near1 := near_points D r1 crows cids crows cids in
    let near2 := near_points D r2 crows cids rows ids in
    let dens0 := density D (repeat bandwidth D) (repeat r0 D) rows ids in
    let dens1 := density D (repeat bandwidth D) (repeat r1 D) crows cids in
    let dens2 := density D (repeat bandwidth D) (repeat r2 D) crows cids in
    largest near0 (length cids) dens0 mx0 -> largest near1 (length cids) dens1 mx1 -> largest near2 (length ids) dens2 mx2 ->
    let down := fun k => layer_formula near0 D rows crows r0 dens0 mx0 (length cids) C C (args (3 * k + 2)) (a (3 * k + 2)) in
    let middle := fun k => layer_formula (fun i => near1 (at_ i)) D crows crows r1 dens1 (fun i => mx1 (at_ i)) (length cids) C C
                             (args (3 * k + 1)) (a (3 * k + 1)) in
    let up := fun k => layer_formula near2 D crows rows r2 dens2 mx2 (length ids) C C (args (3 * k)) (a (3 * k)) in
    spatial_call GPU eps (find_neighbors_tf GPU) (compute_pdf_tf GPU) net bn act feats p q r0 r1 r2 nbs bandwidth
      return_sorted return_padded
    = returned p return_sorted return_padded C
        (residual_network (length ids) C (coarse_convolution bn act down middle up) (shortcut projection (length ids) C pw pb) blocks F).
Proof. exact C53_network_partial_proof. Qed.
Print Assumptions C53_network_partial.

(** C51. Without a neighborhood the result differs from that with the
    neighborhood of the cloud, if the points are not in the order of the grid. *)
Theorem C51_order_refuted :
  exists eps rows ids p g n args net F,
    workable eps 2 1 rows ids p rows ids p /\
    mk_grid GPU eps p (repeat (1#1) 2) = Ok g /\ snd (mk_nbh (find_neighbors_tf GPU) g (repeat (1#1) 2) (Some p) 0) = Ok n /\
    mk_resnet 1 1 2 "MCConv" false (fun _ => args) (fun _ _ => 0%R) (fun _ _ => 0%R) = Ok net /\
    given (Feat 1 (inr F)) p 1 F /\ matrix (length ids) 1 F /\
    forall bandwidth, (0 < bandwidth)%R ->
      let call := fun nb => resnet_call GPU eps (find_neighbors_tf GPU) (compute_pdf_tf GPU) net (fun _ X => X) (fun X => X)
                              (Feat 1 (inr F)) p 1 nb bandwidth false false in
      (exists out, call None = Ok out) /\ (exists out, call (Some (DNbh n None)) = Ok out) /\ call None <> call (Some (DNbh n None)).
Proof. exact C51_order_refuted_proof. Qed.
Print Assumptions C51_order_refuted.

(** C53. The same for the middle convolutions of the spatial bottle neck. *)
Theorem C53_order_refuted :
  exists eps rows ids p g n args net F,
    workable eps 2 1 rows ids p rows ids p /\
    mk_grid GPU eps p (repeat (1#1) 2) = Ok g /\ snd (mk_nbh (find_neighbors_tf GPU) g (repeat (1#1) 2) (Some p) 0) = Ok n /\
    mk_spatial 1 1 2 "mc" false (fun _ => args) (fun _ _ => 0%R) (fun _ _ => 0%R) = Ok net /\
    given (Feat 1 (inr F)) p 1 F /\ matrix (length ids) 1 F /\
    forall bandwidth, (0 < bandwidth)%R ->
      let call := fun nbs => spatial_call GPU eps (find_neighbors_tf GPU) (compute_pdf_tf GPU) net (fun _ X => X) (fun X => X)
                              (Feat 1 (inr F)) p p 1 1 1 nbs bandwidth false false in
      (exists out, call None = Ok out) /\ (exists out, call (Some (DNbh n None, DNbh n None, DNbh n None)) = Ok out) /\
      call None <> call (Some (DNbh n None, DNbh n None, DNbh n None)).
Proof. exact C53_order_refuted_proof. Qed.
Print Assumptions C53_order_refuted.

(** Two blocks of PointConv layers with projections on six points in two
    batch elements with two features. *)
Example C51_network_partial_ex : exists g n net mx,
  workable (1#1000) 2 1 exN_rows exN_ids exN_p exN_rows exN_ids exN_p /\
  mk_grid GPU (1#1000) exN_p (repeat (1#1) 2) = Ok g /\ snd (mk_nbh (find_neighbors_tf GPU) g (repeat (1#1) 2) (Some exN_p) 0) = Ok n /\
  mk_resnet 2 2 2 "PointConv" true exB_point (fun k idx => INR (k + hd 0 idx)) (fun _ _ => 1%R) = Ok net /\
  (forall k, applicable 6 (exB_point k) leaky) /\ keeps_shape (map (map (Rmax 0))) /\
  given (Feat 2 (inr exN_F)) exN_p 2 exN_F /\ matrix 6 2 exN_F /\
  largest (near_points 2 1 exN_rows exN_ids exN_rows exN_ids) 6 (density 2 (repeat 1%R 2) (repeat (1#1) 2) exN_rows exN_ids) mx /\
  map (near_points 2 1 exN_rows exN_ids exN_rows exN_ids) (seq 0 6) = [[0; 1]; [0; 1]; [2]; [3]; [4; 5]; [4; 5]].
Proof. exact C51_network_partial_ex_proof. Qed.

(** The same network without a neighborhood; these points are not in the order
    of the grid. The second cloud is. *)
Example C51_own_neighborhood_partial_ex : exists g net mx,
  workable (1#1000) 2 1 exN_rows exN_ids exN_p exN_rows exN_ids exN_p /\
  mk_resnet 2 2 2 "PointConv" true exB_point (fun k idx => INR (k + hd 0 idx)) (fun _ _ => 1%R) = Ok net /\
  (forall k, applicable 6 (exB_point k) leaky) /\ keeps_shape (map (map (Rmax 0))) /\
  given (Feat 2 (inr exN_F)) exN_p 2 exN_F /\ matrix 6 2 exN_F /\
  largest (near_points 2 1 exN_rows exN_ids exN_rows exN_ids) 6 (density 2 (repeat 1%R 2) (repeat (1#1) 2) exN_rows exN_ids) mx /\
  mk_grid GPU (1#1000) exN_p (repeat (1#1) 2) = Ok g /\ gsidx g = [4; 5; 3; 2; 0; 1] /\
  exists h, mk_grid GPU (1#1000) (seg 2 [[3#1; 1#2]; [1#1; 5#1]; [0#1; 0#1]] [0; 0; 0] 1) (repeat (1#1) 2) = Ok h /\ gsidx h = seq 0 3.
Proof. exact C51_own_neighborhood_partial_ex_proof. Qed.

Example C51_names_ex :
  (~ means "Conv2D" ["mcconv"; "mc"; "mc_conv"; "kpconv"; "kp"; "kp_conv"; "pointconv"; "point_conv"]%string) /\
  means "Point_Conv" ["pointconv"; "point_conv"]%string /\ means "MC" ["mcconv"; "mc"; "mc_conv"]%string /\
  mk_resnet 4 3 2 "Conv2D" true exB_mc (fun _ _ => 1%R) (fun _ _ => 1%R) = Err KeyError /\
  (exists net, mk_resnet 4 3 2 "MC" true exB_mc (fun _ _ => 1%R) (fun _ _ => 1%R) = Ok net /\ length (rn_blocks net) = 3) /\
  (exists net, mk_spatial 4 2 3 "Point_Conv" false exB_point (fun _ _ => 1%R) (fun _ _ => 1%R) = Ok net /\ length (sp_blocks net) = 2).
Proof. exact C51_names_ex_proof. Qed.

Example C51_kernel_points_refuted_ex : exists net,
  means "KPConv" ["kpconv"; "kp"; "kp_conv"]%string /\
  mk_resnet 2 1 2 "KPConv" false (fun _ => exB_kernel) (fun _ _ => 1%R) (fun _ _ => 1%R) = Ok net /\
  resnet_call GPU (1#1000) (find_neighbors_tf GPU) (compute_pdf_tf GPU) net (fun _ X => X) (fun X => X) (Feat 2 (inr exN_F)) exN_p 1 None 1
    false false = Err TypeError.
Proof. exact C51_kernel_points_refuted_ex_proof. Qed.

Example C52_constructor_refuted_ex :
  mk_bottle_neck 4 2 1 2 "mc" true exB_mc (fun _ _ => 1%R) (fun _ _ => 1%R) (fun _ _ => 1%R) (fun _ _ => 1%R) (fun _ _ => 1%R) (fun _ _ => 1%R)
    = Err TypeError /\
  exists l, new_layer 2 2 2 TMC (exB_mc 0) = Ok l.
Proof. exact C52_constructor_refuted_ex_proof. Qed.

(** Two blocks with two features narrowed to four channels. *)
Example C52_call_partial_ex : exists g n mx l0 l1 d u,
  workable (1#1000) 2 1 exN_rows exN_ids exN_p exN_rows exN_ids exN_p /\
  mk_grid GPU (1#1000) exN_p (repeat (1#1) 2) = Ok g /\ snd (mk_nbh (find_neighbors_tf GPU) g (repeat (1#1) 2) (Some exN_p) 0) = Ok n /\
  (let bs := [(l0, None, d, u); (l1, None, d, u)] in
   forall k, k < length bs -> exists l s d u, nth_error bs k = Some (l, s, d, u) /\
     new_layer 4 4 2 TPT (exB_point k) = Ok l /\ mk_shortcut false 2 (fun _ _ => 0%R) (fun _ _ => 0%R) k = Ok s /\
     mk_conv1x1 2 4 (fun _ => 1%R) (fun _ => 0%R) = Ok d /\ mk_conv1x1 4 2 (fun _ => 1%R) (fun _ => 0%R) = Ok u) /\
  (forall k, applicable 6 (exB_point k) leaky) /\ keeps_shape (map (map (Rmax 0))) /\
  given (Feat 2 (inr exN_F)) exN_p 2 exN_F /\ matrix 6 2 exN_F /\
  largest (near_points 2 1 exN_rows exN_ids exN_rows exN_ids) 6 (density 2 (repeat 1%R 2) (repeat (1#1) 2) exN_rows exN_ids) mx.
Proof. exact C52_call_partial_ex_proof. Qed.

(** Two blocks from six points to five and back. *)
Example C53_network_partial_ex : exists g0 n0 g1 n1 n2 net mx0 mx1 mx2,
  workable (1#1000) 2 1 exN_rows exN_ids exN_p exN_centers exN_cids exN_q /\
  workable (1#1000) 2 1 exN_centers exN_cids exN_q exN_centers exN_cids exN_q /\
  workable (1#1000) 2 1 exN_centers exN_cids exN_q exN_rows exN_ids exN_p /\
  mk_grid GPU (1#1000) exN_p (repeat (1#1) 2) = Ok g0 /\ snd (mk_nbh (find_neighbors_tf GPU) g0 (repeat (1#1) 2) (Some exN_q) 0) = Ok n0 /\
  mk_grid GPU (1#1000) exN_q (repeat (1#1) 2) = Ok g1 /\ snd (mk_nbh (find_neighbors_tf GPU) g1 (repeat (1#1) 2) (Some exN_q) 0) = Ok n1 /\
  snd (mk_nbh (find_neighbors_tf GPU) g1 (repeat (1#1) 2) (Some exN_p) 0) = Ok n2 /\
  mk_spatial 2 2 2 "PointConv" true exB_point (fun k idx => INR (k + hd 0 idx)) (fun _ _ => 1%R) = Ok net /\
  (forall k, applicable 5 (exB_point k) leaky /\ applicable 6 (exB_point k) leaky) /\ keeps_shape (map (map (Rmax 0))) /\
  given (Feat 2 (inr exN_F)) exN_p 2 exN_F /\ matrix 6 2 exN_F /\
  largest (near_points 2 1 exN_rows exN_ids exN_centers exN_cids) 5 (density 2 (repeat 1%R 2) (repeat (1#1) 2) exN_rows exN_ids) mx0 /\
  largest (near_points 2 1 exN_centers exN_cids exN_centers exN_cids) 5 (density 2 (repeat 1%R 2) (repeat (1#1) 2) exN_centers exN_cids) mx1 /\
  largest (near_points 2 1 exN_centers exN_cids exN_rows exN_ids) 6 (density 2 (repeat 1%R 2) (repeat (1#1) 2) exN_centers exN_cids) mx2 /\
  map (near_points 2 1 exN_centers exN_cids exN_rows exN_ids) (seq 0 6) = [[0]; [1]; []; []; [4]; []].
Proof. exact C53_network_partial_ex_proof. Qed.
