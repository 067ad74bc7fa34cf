(** Proofs of the residual network properties (C51-C53). The statements are
    copied verbatim into PropertiesBlocks.v. *)
From Coq Require Import String List Arith ZArith QArith Reals Qreals Lia Lra Bool Permutation.
From Verif Require Import Tensor TensorFacts Spec SpecText TextFacts PointCloud SpecCloud PointCloudFacts QFacts Grid SpecGrid GridFacts
  Neighbors SpecNeighbors NeighborFacts NeighborProofs Neighborhood NeighborhoodFacts NeighborhoodProofs
  Sampling SpecSampling SamplingFacts SamplingProofs Hierarchy SpecHierarchy HierarchyFacts Pdf SpecPdf PdfFacts PdfProofs
  RTensor RTensorFacts Layers SpecLayers LayerFacts LayerLink LayerProofs ConvProofs Blocks SpecBlocks BlockFacts.
Import ListNotations.
Local Open Scope nat_scope.

Lemma mk_resnet_inv C blocks D name projection args pw pb net : mk_resnet C blocks D name projection args pw pb = Ok net ->
  exists t bs, layer_types name = Ok t /\ net = ResNet D bs /\
    build (fun i => a <- new_layer C C D t (args (2 * i)) ;; b <- new_layer C C D t (args (2 * i + 1)) ;;
                    s <- mk_shortcut projection C pw pb i ;; Ok (a, b, s)) (seq 0 blocks) = Ok bs.
Proof.
  unfold mk_resnet. destruct (layer_types name) as [t|]; [|discriminate]. cbn [bind].
  match goal with |- context [build ?f ?l] => destruct (build f l) as [bs|] eqn:E; [|discriminate] end.
  cbn [bind]. injection 1 as <-. exists t, bs. auto.
Qed.

Lemma given_rows_ten feats p C F n : given feats p C F -> matrix n C F -> flat_features feats p = Ok (of_rows C F).
Proof. intros (E1 & E2 & E3) _. unfold flat_features. rewrite E2. cbn [bind]. now rewrite E1. Qed.
Lemma rows_output n c F p srt pad : matrix n c F -> layer_output (of_rows c F) p srt pad = returned p srt pad c F.
Proof. intros [E H]. rewrite of_rows_ttab, layer_output_table, E. f_equal. apply table_fval. now split. Qed.

(** C51, PointResNet with a neighborhood of the cloud: every block adds two
    convolutions of the points within the radius, each after normalisation and
    activation, to the (projected) features. *)
Lemma C51_network_partial_proof :
  forall eps D r rows ids p g n name C blocks args a mx projection pw pb net bn act feats F bandwidth return_sorted return_padded,
    workable eps D r rows ids p rows ids p ->
    mk_grid GPU eps p (repeat r D) = Ok g -> snd (mk_nbh (find_neighbors_tf GPU) g (repeat r D) (Some p) 0) = Ok n ->
    mk_resnet C blocks D name projection args pw pb = Ok net -> 0 < C ->
    (forall k, applicable (length ids) (args k) (a k)) -> (forall k, keeps_shape (bn k)) -> keeps_shape act ->
    given feats p C F -> matrix (length ids) C F -> (0 < bandwidth)%R ->
    let near := near_points D r rows ids rows ids in
    let dens := density D (repeat bandwidth D) (repeat r D) rows ids in
    largest near (length ids) dens mx ->
    let conv := fun k => layer_formula near D rows rows r dens mx (length ids) C C (args k) (a k) in
    resnet_call GPU eps (find_neighbors_tf GPU) (compute_pdf_tf GPU) net bn act feats p r (Some (DNbh n None)) bandwidth
      return_sorted return_padded
    = returned p return_sorted return_padded C
        (residual_network (length ids) C (two_convolutions bn act conv) (shortcut projection (length ids) C pw pb) blocks F).
Proof.
  intros eps D r rows ids p g n name C blocks args a mx projection pw pb net bn act feats F bw srt pad
    W Eg En Enet HC Ha Hbn Hact Hg HF Hb near dens Hmx conv.
  pose proof (passed_ready eps D r bw rows ids p rows ids p g n W Hb Eg En) as Hx.
  apply mk_resnet_inv in Enet as (t & bs & _ & -> & Ebs).
  destruct W as [(B & Hc & _) _ HD Hr _ _ _]. pose proof (cloud_is _ _ _ _ _ _ _ Hc) as Hi.
  pose proof (ic_pts _ _ _ _ _ _ _ Hi) as Ep. pose proof (ic_dim _ _ _ _ _ _ _ Hi) as Ed. pose proof (ic_len _ _ _ _ _ _ _ Hi) as El.
  unfold resnet_call. rewrite (given_rows_ten feats p C F _ Hg HF). cbn [bind rn_blocks].
  rewrite <- Ed in Ebs.
  destruct (resnet_loop_ok eps (ready D r bw rows ids rows ids) conv bn act p r bw C t args projection pw pb (length ids)
    Hbn Hact ltac:(rewrite Ep; exact El)) with (n := blocks) (i := 0) (bs := bs) (x := DNbh n None) (F := F) as [HY EY]; auto.
  { intros k l X x El' HX Hx'. rewrite Ed in El'. apply (layer_block eps D r bw rows ids rows ids rows p p t C C (args k) (a k) l mx X r x); auto. }
  rewrite EY. cbn [bind]. apply (rows_output _ _ _ _ _ _ HY).
Qed.

(** C51, PointResNet without a neighborhood: the convolutions take the neighbors
    of output point [i] around the [i]-th point in the order of the grid; the
    result is that of the first theorem if the points are in this order. *)
Lemma C51_own_neighborhood_partial_proof :
  forall eps D r rows ids p name C blocks args a mx projection pw pb net bn act feats F bandwidth return_sorted return_padded,
    workable eps D r rows ids p rows ids p ->
    mk_resnet C blocks D name projection args pw pb = Ok net -> 0 < C ->
    (forall k, applicable (length ids) (args k) (a k)) -> (forall k, keeps_shape (bn k)) -> keeps_shape act ->
    given feats p C F -> matrix (length ids) C F -> (0 < bandwidth)%R ->
    let near := near_points D r rows ids rows ids in
    let dens := density D (repeat bandwidth D) (repeat r D) rows ids in
    largest near (length ids) dens mx ->
    exists g, mk_grid GPU eps p (repeat r D) = Ok g /\ Permutation (gsidx g) (seq 0 (length ids)) /\
    let conv := fun at_ k => layer_formula (fun i => near (at_ i)) D rows rows r dens (fun i => mx (at_ i)) (length ids) C C (args k) (a k) in
    let result := fun at_ => returned p return_sorted return_padded C
        (residual_network (length ids) C (two_convolutions bn act (conv at_)) (shortcut projection (length ids) C pw pb) blocks F) in
    let call := resnet_call GPU eps (find_neighbors_tf GPU) (compute_pdf_tf GPU) net bn act feats p r None bandwidth
      return_sorted return_padded in
    call = result (fun i => nth i (gsidx g) 0) /\
    (gsidx g = seq 0 (length ids) -> call = result (fun i => i)).
Proof.
  intros eps D r rows ids p name C blocks args a mx projection pw pb net bn act feats F bw srt pad
    W Enet HC Ha Hbn Hact Hg HF Hb near dens Hmx.
  destruct (own_ready eps D r bw rows ids p rows ids p W Hb) as (g & x & Eg & Eown & Hx & Lb & Hperm & Hnear).
  exists g. split; [exact Eg|]. split; [exact Hperm|]. intros conv result call.
  apply mk_resnet_inv in Enet as (t & bs & _ & -> & Ebs).
  destruct W as [(B & Hc & _) _ HD Hr _ _ _]. pose proof (cloud_is _ _ _ _ _ _ _ Hc) as Hi.
  pose proof (ic_pts _ _ _ _ _ _ _ Hi) as Ep. pose proof (ic_dim _ _ _ _ _ _ _ Hi) as Ed. pose proof (ic_len _ _ _ _ _ _ _ Hi) as El.
  assert (Hall : forall at_, (forall i, i < length ids -> at_ i = nth i (gsidx g) 0) -> call = result at_).
  { intros at_ Hat. unfold call, result, resnet_call. rewrite (given_rows_ten feats p C F _ Hg HF). cbn [bind rn_dims rn_blocks].
    rewrite Eown. cbn [bind]. rewrite <- Ed in Ebs.
    destruct (resnet_loop_ok eps (ready D r bw rows ids (gspts g) (gsbids g)) (conv at_) bn act p r bw C t args projection pw pb (length ids)
      Hbn Hact ltac:(rewrite Ep; exact El)) with (n := blocks) (i := 0) (bs := bs) (x := x) (F := F) as [HY EY]; auto.
    { intros k l X y El' HX Hx'. rewrite Ed in El'. unfold conv.
      apply (own_block eps D r bw rows ids p t C (args k) (a k) l mx (gsidx g) (gspts g) (gsbids g) at_ X r y); auto. }
    rewrite EY. cbn [bind]. apply (rows_output _ _ _ _ _ _ HY). }
  split; [apply Hall; reflexivity|]. intros Es. apply Hall. intros i Hi'. rewrite Es, seq_nth by exact Hi'. reflexivity.
Qed.

(** The type of layer meant by a name. *)
Lemma names_ok name :
  (means name ["mcconv"; "mc"; "mc_conv"]%string -> layer_types name = Ok TMC) /\
  (means name ["kpconv"; "kp"; "kp_conv"]%string -> layer_types name = Ok TKP) /\
  (means name ["pointconv"; "point_conv"]%string -> layer_types name = Ok TPT) /\
  (~ means name ["mcconv"; "mc"; "mc_conv"; "kpconv"; "kp"; "kp_conv"; "pointconv"; "point_conv"]%string -> layer_types name = Err KeyError).
Proof.
  unfold layer_types. split; [|split; [|split]]; intros H.
  - apply means_lower in H; [|repeat constructor]. destruct H as [<-|[<-|[<-|[]]]]; reflexivity.
  - apply means_lower in H; [|repeat constructor]. destruct H as [<-|[<-|[<-|[]]]]; reflexivity.
  - apply means_lower in H; [|repeat constructor]. destruct H as [<-|[<-|[]]]; reflexivity.
  - assert (Hn : forall l, incl l ["mcconv"; "mc"; "mc_conv"; "kpconv"; "kp"; "kp_conv"; "pointconv"; "point_conv"]%string ->
      existsb (String.eqb (lower name)) l = false).
    { intros l Hl. apply not_true_iff_false. intros E. apply existsb_exists in E as (x & Hx & E). apply String.eqb_eq in E.
      apply H, means_lower; [repeat constructor|]. rewrite E. apply Hl, Hx. }
    rewrite !Hn; [reflexivity|..]; intros x Hx; cbn in *; tauto.
Qed.

(** C51, C52, C53: the accepted names of layer types (in any case), and the
    error for other names. *)
Lemma C51_names_proof :
  forall name C M blocks D projection args pw pb dw db uw ub,
    (~ means name ["mcconv"; "mc"; "mc_conv"; "kpconv"; "kp"; "kp_conv"; "pointconv"; "point_conv"]%string ->
     mk_resnet C blocks D name projection args pw pb = Err KeyError /\
     mk_bottle_neck C M blocks D name projection args pw pb dw db uw ub = Err KeyError /\
     mk_spatial C blocks D name projection args pw pb = Err KeyError) /\
    (0 < C -> 0 < D ->
     (means name ["pointconv"; "point_conv"]%string /\ (forall k, exists hidden act axis bias w w1 b1 w2 b2, args k = APT hidden act axis bias w w1 b1 w2 b2) \/
      means name ["mcconv"; "mc"; "mc_conv"]%string /\ (forall k, exists mlps sizes act w b fw, args k = AMC mlps sizes act w b fw /\
         0 < mlps /\ C mod mlps = 0 /\ sizes <> [] /\ Forall (fun s => 0 < s) sizes)) ->
     (exists net, mk_resnet C blocks D name projection args pw pb = Ok net) /\
     (exists net, mk_spatial C blocks D name projection args pw pb = Ok net)).
Proof.
  intros name C M blocks D projection args pw pb dw db uw ub. destruct (names_ok name) as (N1 & _ & N3 & N4). split.
  - intros H. unfold mk_resnet, mk_bottle_neck, mk_spatial. rewrite (N4 H). auto.
  - intros HC HD H.
    assert (Hnew : exists t, layer_types name = Ok t /\ forall k, exists l, new_layer C C D t (args k) = Ok l).
    { destruct H as [[Hn Ha]|[Hn Ha]].
      - exists TPT. split; [auto|]. intros k. destruct (Ha k) as (hidden & act & axis & bias & w & w1 & b1 & w2 & b2 & ->). eexists. reflexivity.
      - exists TMC. split; [auto|]. intros k. destruct (Ha k) as (mlps & sizes & act & w & b & fw & -> & H1 & H2 & H3 & H4).
        cbn [new_layer]. unfold mk_mcconv. destruct (Nat.eqb_spec mlps 0); [lia|]. rewrite H2. change (negb (0 =? 0)) with false. cbv iota.
        replace (match sizes with [] => true | _ :: _ => false end) with false by (destruct sizes; [contradiction|reflexivity]).
        assert (Ex : existsb (Nat.eqb 0) (C :: D :: sizes) = false).
        { apply not_true_iff_false. intros E. apply existsb_exists in E as (x & Hx & E). apply Nat.eqb_eq in E. subst x.
          rewrite Forall_forall in H4. destruct Hx as [Hx|[Hx|Hx]]; [lia..|]. specialize (H4 0 Hx). lia. }
        rewrite Ex. eexists. reflexivity. }
    destruct Hnew as (t & Et & Hnew).
    assert (Hs : forall i, exists s, mk_shortcut projection C pw pb i = Ok s).
    { intros i. unfold mk_shortcut, mk_conv1x1. destruct projection; [|eauto]. destruct (Nat.eqb_spec C 0); [lia|]. eexists. reflexivity. }
    assert (Hb : forall A (f : nat -> result A), (forall i, exists b, f i = Ok b) -> forall n i, exists l, build f (seq i n) = Ok l).
    { intros A f Hf n. induction n as [|n IH]; intros i; [now exists []|]. cbn [seq build]. destruct (Hf i) as [b ->].
      destruct (IH (S i)) as [l ->]. eexists. reflexivity. }
    unfold mk_resnet, mk_spatial. rewrite Et. cbn [bind]. split.
    + edestruct Hb as [l El]; [|rewrite El; eexists; reflexivity]. intros i. cbv beta.
      destruct (Hnew (2 * i)) as [l1 ->]. destruct (Hnew (2 * i + 1)) as [l2 ->]. destruct (Hs i) as [s ->]. eexists. reflexivity.
    + edestruct Hb as [l El]; [|rewrite El; eexists; reflexivity]. intros i. cbv beta.
      destruct (Hnew (3 * i)) as [l1 ->]. destruct (Hnew (3 * i + 1)) as [l2 ->]. destruct (Hnew (3 * i + 2)) as [l3 ->]. destruct (Hs i) as [s ->].
      eexists. reflexivity.
Qed.

(** C51, C53. Networks of kernel point convolutions can be made but not
    applied. *)
Lemma C51_kernel_points_refuted_proof :
  forall dev eps search kde name C blocks D projection args pw pb bn act feats p q r r0 r1 r2 nb nbs bandwidth return_sorted return_padded,
    means name ["kpconv"; "kp"; "kp_conv"]%string -> 0 < blocks ->
    (forall net, mk_resnet C blocks D name projection args pw pb = Ok net ->
     forall out, resnet_call dev eps search kde net bn act feats p r nb bandwidth return_sorted return_padded <> Ok out) /\
    (forall net, mk_spatial C blocks D name projection args pw pb = Ok net ->
     forall out, spatial_call dev eps search kde net bn act feats p q r0 r1 r2 nbs bandwidth return_sorted return_padded <> Ok out).
Proof.
  intros dev eps search kde name C blocks D projection args pw pb bn act feats p q r r0 r1 r2 nb nbs bw srt pad Hn Hb.
  destruct (names_ok name) as (_ & N2 & _). specialize (N2 Hn). destruct blocks as [|blocks]; [lia|].
  assert (Hk : forall k l, new_layer C C D TKP (args k) = Ok l -> exists c, l = LKP c).
  { intros k l. unfold new_layer. destruct (args k); try discriminate. destruct (mk_kpconv _ _ _ _ _ _ _ _ _ _); [|discriminate].
    cbn [bind]. injection 1 as <-. eauto. }
  split.
  - intros net E. apply mk_resnet_inv in E as (t & bs & Et & -> & Eb). rewrite N2 in Et. injection Et as <-.
    apply build_cons in Eb as (b & rest & -> & Eb & _).
    destruct (new_layer C C D TKP (args (2 * 0))) as [l1|] eqn:E1; [|discriminate]. cbn [bind] in Eb.
    destruct (new_layer C C D TKP (args (2 * 0 + 1))) as [l2|] eqn:E2; [|discriminate]. cbn [bind] in Eb.
    destruct (mk_shortcut projection C pw pb 0) as [s|]; [|discriminate]. injection Eb as <-.
    apply Hk in E1 as [c ->]. intros out. unfold resnet_call. destruct (flat_features feats p) as [f|]; [|discriminate].
    cbn [bind]. destruct (match nb with Some x => Ok x | None => _ end) as [x|]; [|discriminate]. cbn [bind rn_blocks resnet_loop].
    destruct (pre bn act (2 * 0) f); discriminate.
  - intros net E. unfold mk_spatial in E. rewrite N2 in E. cbn [bind] in E.
    match type of E with context [build ?f ?l] => destruct (build f l) as [bs|] eqn:Eb; [|discriminate] end. injection E as <-.
    apply build_cons in Eb as (b & rest & -> & Eb & _).
    destruct (new_layer C C D TKP (args (3 * 0))) as [l1|] eqn:E1; [|discriminate]. cbn [bind] in Eb.
    destruct (new_layer C C D TKP (args (3 * 0 + 1))) as [l2|] eqn:E2; [|discriminate]. cbn [bind] in Eb.
    destruct (new_layer C C D TKP (args (3 * 0 + 2))) as [l3|] eqn:E3; [|discriminate]. cbn [bind] in Eb.
    destruct (mk_shortcut projection C pw pb 0) as [s|]; [|discriminate]. injection Eb as <-.
    apply Hk in E3 as [c ->]. intros out. unfold spatial_call. destruct (flat_features feats p) as [f|]; [|discriminate].
    cbn [bind]. destruct (match nbs with Some x => Ok x | None => _ end) as [[[x0 x1] x2]|]; [|discriminate]. cbn [bind sp_blocks spatial_loop].
    destruct (pre bn act (3 * 0) f); discriminate.
Qed.

(** * C52 *)
(** C52. The network with a bottle neck in the features cannot be made, except
    without any block. *)
Lemma C52_constructor_refuted_proof :
  forall C M blocks D name projection args pw pb dw db uw ub,
    (0 < blocks -> forall net, mk_bottle_neck C M blocks D name projection args pw pb dw db uw ub <> Ok net) /\
    (forall t l, 0 < blocks -> 0 < C -> layer_types name = Ok t -> new_layer M M D t (args 0) = Ok l ->
      mk_bottle_neck C M blocks D name projection args pw pb dw db uw ub = Err TypeError) /\
    (forall t, layer_types name = Ok t -> mk_bottle_neck C M 0 D name projection args pw pb dw db uw ub = Ok (BottleNeck D [])).
Proof.
  intros C M blocks D name projection args pw pb dw db uw ub. unfold mk_bottle_neck. split; [|split].
  - intros Hb net. destruct blocks as [|blocks]; [lia|]. destruct (layer_types name) as [t|]; [|discriminate]. cbn [bind seq build].
    destruct (new_layer M M D t (args 0)); [|discriminate]. cbn [bind].
    destruct (mk_shortcut projection C pw pb 0); discriminate.
  - intros t l Hb HC -> El. destruct blocks as [|blocks]; [lia|]. cbn [bind seq build]. rewrite El. cbn [bind].
    unfold mk_shortcut, mk_conv1x1. destruct (Nat.eqb_spec C 0); [lia|]. destruct projection; reflexivity.
  - intros t ->. reflexivity.
Qed.

(** C52: what the calls of such a network compute, were its 1x1 convolutions
    made without the argument [use_bias]. The neighbors of output point [i] are
    those of the point [at_ i]: point [i] if a neighborhood is passed, the [i]-th
    point in the order of the grid otherwise. *)
Lemma C52_call_partial_proof :
  forall eps D r rows ids p g n t C M bs args a mx projection pw pb dw db uw ub bn act feats F bandwidth return_sorted return_padded nb at_,
    workable eps D r rows ids p rows ids p ->
    mk_grid GPU eps p (repeat r D) = Ok g -> snd (mk_nbh (find_neighbors_tf GPU) g (repeat r D) (Some p) 0) = Ok n ->
    (nb = Some (DNbh n None) /\ at_ = (fun i => i) \/ nb = None /\ at_ = (fun i => nth i (gsidx g) 0)) ->
    (forall k, k < length bs -> exists l s d u, nth_error bs k = Some (l, s, d, u) /\
       new_layer M M D t (args k) = Ok l /\ mk_shortcut projection C pw pb k = Ok s /\
       mk_conv1x1 C M (dw k) (db k) = Ok d /\ mk_conv1x1 M C (uw k) (ub k) = Ok u) -> 0 < M ->
    (forall k, applicable (length ids) (args k) (a k)) -> (forall k, keeps_shape (bn k)) -> keeps_shape act ->
    given feats p C F -> matrix (length ids) C F -> (0 < bandwidth)%R ->
    let near := near_points D r rows ids rows ids in
    let dens := density D (repeat bandwidth D) (repeat r D) rows ids in
    largest near (length ids) dens mx ->
    let conv := fun k => layer_formula (fun i => near (at_ i)) D rows rows r dens (fun i => mx (at_ i)) (length ids) M M (args k) (a k) in
    bottle_neck_call GPU eps (find_neighbors_tf GPU) (compute_pdf_tf GPU) (BottleNeck D bs) bn act feats p r nb bandwidth
      return_sorted return_padded
    = returned p return_sorted return_padded C
        (residual_network (length ids) C (narrow_convolution bn act (length ids) C M dw db uw ub conv)
           (shortcut projection (length ids) C pw pb) (length bs) F).
Proof.
  intros eps D r rows ids p g n t C M bs args a mx projection pw pb dw db uw ub bn act feats F bw srt pad nb at_
    W Eg En Hnb Hbs HM Ha Hbn Hact Hg HF Hb near dens Hmx conv.
  pose proof (passed_ready eps D r bw rows ids p rows ids p g n W Hb Eg En) as Hx.
  destruct (own_ready eps D r bw rows ids p rows ids p W Hb) as (g' & x & Eg' & Eown & Hx' & Lb & Hperm & Hnear).
  rewrite Eg in Eg'. injection Eg' as <-.
  destruct W as [(B & Hc & _) _ HD Hr _ _ _]. pose proof (cloud_is _ _ _ _ _ _ _ Hc) as Hi.
  pose proof (ic_pts _ _ _ _ _ _ _ Hi) as Ep. pose proof (ic_dim _ _ _ _ _ _ _ Hi) as Ed. pose proof (ic_len _ _ _ _ _ _ _ Hi) as El.
  unfold bottle_neck_call. rewrite (given_rows_ten feats p C F _ Hg HF). cbn [bind bo_dims bo_blocks].
  assert (Hloop : forall (inv : dnbh -> Prop) y, inv y ->
    (forall k l X x, k < length bs -> new_layer M M D t (args k) = Ok l -> matrix (length ids) M X -> inv x -> exists y, inv y /\ matrix (length ids) M (conv k X) /\
     block_conv GPU eps (find_neighbors_tf GPU) (compute_pdf_tf GPU) l (of_rows M X) p p r x bw = (y, Ok (of_rows M (conv k X)))) ->
    (o <- bottle_neck_loop GPU eps (find_neighbors_tf GPU) (compute_pdf_tf GPU) bn act p r bw 0 bs y (of_rows C F) ;; layer_output o p srt pad)
    = returned p srt pad C
        (residual_network (length ids) C (narrow_convolution bn act (length ids) C M dw db uw ub conv)
           (shortcut projection (length ids) C pw pb) (length bs) F)).
  { intros inv y Hy Hconv.
    destruct (bottle_neck_loop_ok eps inv conv bn act p r bw C M projection pw pb dw db uw ub (length ids) bs
      Hbn Hact ltac:(rewrite Ep; exact El) 0) with (x := y) (F := F) as [HY EY]; auto.
    { intros k Hk. destruct (Hbs k Hk) as (l & s & d & u & E1 & E2 & E3 & E4 & E5). exists l, s, d, u. cbn [Nat.add].
      repeat (split; [assumption|]). intros X z HX Hz. apply (Hconv k l X z); auto. }
    rewrite EY. cbn [bind]. apply (rows_output _ _ _ _ _ _ HY). }
  destruct Hnb as [[-> ->]|[-> ->]].
  - cbn [bind]. apply (Hloop (ready D r bw rows ids rows ids)); [exact Hx|]. intros k l X z Hk El' HX Hz.
    apply (layer_block eps D r bw rows ids rows ids rows p p t M M (args k) (a k) l mx X r z); auto.
  - rewrite Eown. cbn [bind]. apply (Hloop (ready D r bw rows ids (gspts g) (gsbids g))); [exact Hx'|]. intros k l X z Hk El' HX Hz.
    apply (own_block eps D r bw rows ids p t M (args k) (a k) l mx (gsidx g) (gspts g) (gsbids g) (fun i => nth i (gsidx g) 0) X r z); auto.
Qed.

(** * C53 *)
Lemma mk_spatial_inv C blocks D name projection args pw pb net : mk_spatial C blocks D name projection args pw pb = Ok net ->
  exists t bs, layer_types name = Ok t /\ net = Spatial D bs /\
    build (fun i => u <- new_layer C C D t (args (3 * i)) ;; m <- new_layer C C D t (args (3 * i + 1)) ;;
                    d <- new_layer C C D t (args (3 * i + 2)) ;;
                    s <- mk_shortcut projection C pw pb i ;; Ok (u, m, d, s)) (seq 0 blocks) = Ok bs.
Proof.
  unfold mk_spatial. destruct (layer_types name) as [t|]; [|discriminate]. cbn [bind].
  match goal with |- context [build ?f ?l] => destruct (build f l) as [bs|] eqn:E; [|discriminate] end.
  cbn [bind]. injection 1 as <-. exists t, bs. auto.
Qed.

(** C53, PointResNetSpatialBottleNeck: every block adds a convolution to the
    downsampled cloud, one inside of it and one back to the points. With the
    three neighborhoods passed, the middle convolution takes the neighbors of
    each downsampled point; without them it takes those of the point at the
    same place in the order of the grid ([at_]). *)
Lemma C53_network_partial_proof :
  forall eps D r0 r1 r2 rows ids p crows cids q g0 n0 g1 n1 g2 n2 name C blocks args a mx0 mx1 mx2 projection pw pb net bn act
         feats F bandwidth return_sorted return_padded nbs at_,
    workable eps D r0 rows ids p crows cids q -> workable eps D r1 crows cids q crows cids q ->
    workable eps D r2 crows cids q rows ids p ->
    mk_grid GPU eps p (repeat r0 D) = Ok g0 -> snd (mk_nbh (find_neighbors_tf GPU) g0 (repeat r0 D) (Some q) 0) = Ok n0 ->
    mk_grid GPU eps q (repeat r1 D) = Ok g1 -> snd (mk_nbh (find_neighbors_tf GPU) g1 (repeat r1 D) (Some q) 0) = Ok n1 ->
    mk_grid GPU eps q (repeat r2 D) = Ok g2 -> snd (mk_nbh (find_neighbors_tf GPU) g2 (repeat r2 D) (Some p) 0) = Ok n2 ->
    (nbs = Some (DNbh n0 None, DNbh n1 None, DNbh n2 None) /\ at_ = (fun i => i) \/
     nbs = None /\ at_ = (fun i => nth i (gsidx g1) 0)) ->
    (r0 == r2 -> r0 = r2)%Q ->
    mk_spatial C blocks D name projection args pw pb = Ok net -> 0 < C ->
    (forall k, applicable (length cids) (args k) (a k) /\ applicable (length ids) (args k) (a k)) ->
    (forall k, keeps_shape (bn k)) -> keeps_shape act ->
    given feats p C F -> matrix (length ids) C F -> (0 < bandwidth)%R ->
    let near0 := near_points D r0 rows ids crows cids in
    let near1 := near_points D r1 crows cids crows cids in
    let near2 := near_points D r2 crows cids rows ids in
    let dens0 := density D (repeat bandwidth D) (repeat r0 D) rows ids in
    let dens1 := density D (repeat bandwidth D) (repeat r1 D) crows cids in
    let dens2 := density D (repeat bandwidth D) (repeat r2 D) crows cids in
    largest near0 (length cids) dens0 mx0 -> largest near1 (length cids) dens1 mx1 -> largest near2 (length ids) dens2 mx2 ->
    let down := fun k => layer_formula near0 D rows crows r0 dens0 mx0 (length cids) C C (args (3 * k + 2)) (a (3 * k + 2)) in
    let middle := fun k => layer_formula (fun i => near1 (at_ i)) D crows crows r1 dens1 (fun i => mx1 (at_ i)) (length cids) C C
                             (args (3 * k + 1)) (a (3 * k + 1)) in
    let up := fun k => layer_formula near2 D crows rows r2 dens2 mx2 (length ids) C C (args (3 * k)) (a (3 * k)) in
    spatial_call GPU eps (find_neighbors_tf GPU) (compute_pdf_tf GPU) net bn act feats p q r0 r1 r2 nbs bandwidth
      return_sorted return_padded
    = returned p return_sorted return_padded C
        (residual_network (length ids) C (coarse_convolution bn act down middle up) (shortcut projection (length ids) C pw pb) blocks F).
Proof.
  intros eps D r0 r1 r2 rows ids p crows cids q g0 n0 g1 n1 g2 n2 name C blocks args a mx0 mx1 mx2 projection pw pb net bn act
    feats F bw srt pad nbs at_ W0 W1 W2 Eg0 En0 Eg1 En1 Eg2 En2 Hnbs Hr02 Enet HC Ha Hbn Hact Hg HF Hb
    near0 near1 near2 dens0 dens1 dens2 Hm0 Hm1 Hm2 down middle up.
  pose proof (passed_ready eps D r0 bw rows ids p crows cids q g0 n0 W0 Hb Eg0 En0) as Hx0.
  pose proof (passed_ready eps D r1 bw crows cids q crows cids q g1 n1 W1 Hb Eg1 En1) as Hx1.
  pose proof (passed_ready eps D r2 bw crows cids q rows ids p g2 n2 W2 Hb Eg2 En2) as Hx2.
  destruct (own_ready eps D r1 bw crows cids q crows cids q W1 Hb) as (g' & x & Eg' & Eown & Hx' & Lb & Hperm & Hnear).
  rewrite Eg1 in Eg'. injection Eg' as <-.
  assert (Hup : exists y, ready D r2 bw crows cids rows ids (DNbh y None) /\
    (if Qeq_bool r0 r2 then transpose GPU eps (find_neighbors_tf GPU) n0
     else g2 <- mk_grid GPU eps q (repeat r2 D) ;; snd (mk_nbh (find_neighbors_tf GPU) g2 (repeat r2 D) (Some p) 0)) = Ok y).
  { destruct (Qeq_bool r0 r2) eqn:E.
    - apply Qeq_bool_iff, Hr02 in E. subst r2.
      destruct (transposed_ready eps D r0 bw rows ids p crows cids q g0 n0 W0 W2 Hb Eg0 En0) as (y & Ey & Hy). eauto.
    - exists n2. split; [exact Hx2|]. rewrite Eg2. exact En2. }
  destruct Hup as (y2 & Hy2 & Ey2).
  apply mk_spatial_inv in Enet as (t & bs & _ & -> & Ebs).
  destruct W0 as [(B & Hc & _) (ceps & CB & Ho) HD Hr0 _ _ _]. destruct W1 as [_ _ _ Hr1 _ _ _]. destruct W2 as [_ _ _ Hr2 _ _ _].
  pose proof (cloud_is _ _ _ _ _ _ _ Hc) as Hi. pose proof (cloud_is _ _ _ _ _ _ _ Ho) as Hio.
  pose proof (ic_pts _ _ _ _ _ _ _ Hi) as Ep. pose proof (ic_dim _ _ _ _ _ _ _ Hi) as Ed. pose proof (ic_len _ _ _ _ _ _ _ Hi) as El.
  pose proof (ic_pts _ _ _ _ _ _ _ Hio) as Eq. pose proof (ic_dim _ _ _ _ _ _ _ Hio) as Edq. pose proof (ic_len _ _ _ _ _ _ _ Hio) as Elq.
  unfold spatial_call. rewrite (given_rows_ten feats p C F _ Hg HF). cbn [bind sp_dims sp_blocks].
  rewrite <- Ed in Ebs.
  assert (Hloop : forall (inv1 : dnbh -> Prop) x1 x2, inv1 x1 -> ready D r2 bw crows cids rows ids x2 ->
    (forall k l X x, new_layer C C D t (args (3 * k + 1)) = Ok l -> matrix (length cids) C X -> inv1 x ->
     exists y, inv1 y /\ matrix (length cids) C (middle k X) /\
     block_conv GPU eps (find_neighbors_tf GPU) (compute_pdf_tf GPU) l (of_rows C X) q q r1 x bw = (y, Ok (of_rows C (middle k X)))) ->
    (o <- spatial_loop GPU eps (find_neighbors_tf GPU) (compute_pdf_tf GPU) bn act p q r0 r1 r2 bw 0 bs (DNbh n0 None, x1, x2) (of_rows C F) ;;
     layer_output o p srt pad)
    = returned p srt pad C
        (residual_network (length ids) C (coarse_convolution bn act down middle up) (shortcut projection (length ids) C pw pb) blocks F)).
  { intros inv1 x1 x2 Hi1 Hi2 Hmid.
    destruct (spatial_loop_ok eps (ready D r0 bw rows ids crows cids) inv1 (ready D r2 bw crows cids rows ids) down middle up
      bn act p q r0 r1 r2 bw C t args projection pw pb (length ids) (length cids) Hbn Hact ltac:(rewrite Ep; exact El))
      with (n := blocks) (i := 0) (bs := bs) (x0 := DNbh n0 None) (x1 := x1) (x2 := x2) (F := F) as [HY EY]; auto.
    { intros k l X z El' HX Hz. rewrite Ed in El'.
      apply (layer_block eps D r0 bw rows ids crows cids crows p q t C C (args (3 * k + 2)) (a (3 * k + 2)) l mx0 X r0 z); auto. apply Ha. }
    { intros k l X z El' HX Hz. rewrite Ed in El'. apply (Hmid k l X z); auto. }
    { intros k l X z El' HX Hz. rewrite Ed in El'.
      apply (layer_block eps D r2 bw crows cids rows ids rows q p t C C (args (3 * k)) (a (3 * k)) l mx2 X r2 z); auto. apply Ha. }
    rewrite EY. cbn [bind]. apply (rows_output _ _ _ _ _ _ HY). }
  destruct Hnbs as [[-> ->]|[-> ->]].
  - cbn [bind]. apply (Hloop (ready D r1 bw crows cids crows cids)); [exact Hx1|exact Hx2|]. intros k l X z El' HX Hz.
    apply (layer_block eps D r1 bw crows cids crows cids crows q q t C C (args (3 * k + 1)) (a (3 * k + 1)) l mx1 X r1 z); auto. apply Ha.
  - unfold spatial_nbhs. rewrite Eg0. cbn [bind]. rewrite En0. cbn [bind]. rewrite Eown. cbn [bind]. rewrite Ey2. cbn [bind].
    apply (Hloop (ready D r1 bw crows cids (gspts g1) (gsbids g1))); [exact Hx'|exact Hy2|]. intros k l X z El' HX Hz.
    apply (own_block eps D r1 bw crows cids q t C (args (3 * k + 1)) (a (3 * k + 1)) l mx1 (gsidx g1) (gspts g1) (gsbids g1) (fun i => nth i (gsidx g1) 0) X r1 z); auto.
    apply Ha.
Qed.

(** * Clouds not in the order of the grid *)
Definition exB_rows : list point := [[0%Q; 0%Q]; [(4#1)%Q; 0%Q]; [(2#1)%Q; 0%Q]].
Definition exB_ids : list nat := [0; 0; 0].
Definition exB_cloud : pc := seg 2 exB_rows exB_ids 1.
Definition exB_args : layer_args := AMC 1 [1] "relu" (fun _ _ => 0%R) (fun _ _ => 1%R) (fun _ => 1%R).
Definition exB_F : mat := [[1%R]; [0%R]; [0%R]].
Lemma exB_workable : workable (1#1000) 2 1 exB_rows exB_ids exB_cloud exB_rows exB_ids exB_cloud.
Proof.
  constructor.
  - exists 1. split; [apply seg_cloud; repeat constructor|]. split; [repeat constructor|].
    exists [5%Z;1%Z]. split; [reflexivity|]. split; [vm_compute; discriminate|]. intros d Hd. destruct d as [|[|d]]; [| |lia]; (split; [cbn; lia|]);
    intros i j Hi Hj _; cbn in Hi, Hj;
    do 3 (destruct i as [|i]; [do 3 (destruct j as [|j]; [vm_compute; discriminate|]); lia|]); lia.
  - exists (1#1000), 1. apply seg_cloud; repeat constructor.
  - lia.
  - reflexivity.
  - split; vm_compute; congruence.
  - split; [discriminate|vm_compute; reflexivity].
  - discriminate.
Qed.
Lemma exB_near : forall i, i < 3 -> near_points 2 1 exB_rows exB_ids exB_rows exB_ids i = [i].
Proof. intros i Hi. do 3 (destruct i as [|i]; [vm_compute; reflexivity|]). lia. Qed.
Lemma exB_matrix : matrix 3 1 exB_F.
Proof. split; repeat constructor. Qed.
Lemma exB_given : given (Feat 1 (inr exB_F)) exB_cloud 1 exB_F.
Proof. split; [reflexivity|]. split; reflexivity. Qed.
Lemma exB_activation : activation "relu" (fun x => Rmax 0 x).
Proof. left. split; [apply means_lower; [repeat constructor|now left]|reflexivity]. Qed.
Lemma exB_grid : exists g n, mk_grid GPU (1#1000) exB_cloud (repeat (1#1) 2) = Ok g /\ gsidx g = [1; 2; 0] /\
  snd (mk_nbh (find_neighbors_tf GPU) g (repeat (1#1) 2) (Some exB_cloud) 0) = Ok n.
Proof.
  destruct (mk_grid GPU (1#1000) exB_cloud (repeat (1#1) 2)) as [g|] eqn:Eg; [|vm_compute in Eg; discriminate].
  vm_compute in Eg. injection Eg as <-. eexists. eexists. split; [reflexivity|]. split; [reflexivity|]. vm_compute. reflexivity.
Qed.
Lemma exB_dens bw : (0 < bw)%R -> forall i, i < 3 -> (0 < density 2 (repeat bw 2) (repeat (1#1) 2) exB_rows exB_ids i)%R.
Proof.
  intros Hb i Hi. apply density_pos; [reflexivity| |reflexivity|exact Hi].
  apply Forall_forall. intros x Hx. apply repeat_spec in Hx. now subst.
Qed.
(** With the constant kernel and a single neighbor the convolution divides the
    feature of the neighbor by its density. *)
Lemma exB_layer nb rows dens mx n F f : (forall i, i < n -> nb i = [f i]) ->
  layer_formula nb 2 rows rows 1 dens mx n 1 1 exB_args (fun x => Rmax 0 x) F = table n 1 (fun i _ => (fval F (f i) 0 / dens (f i))%R).
Proof.
  intros Hnb. unfold layer_formula, exB_args, table. apply map_ext_in. intros i Hi. apply in_seq in Hi. apply map_ext_in. intros o Ho.
  unfold mc_formula_over, weighted_sum. rewrite Hnb by lia. cbn [last seq mlp]. unfold sum_over. cbn [map fold_right].
  rewrite Rmax_right by (rewrite !Rmult_0_r; lra). unfold Rdiv. rewrite !Rmult_0_r. ring.
Qed.

(** C51. Without a neighborhood the result differs from that with the
    neighborhood of the cloud, if the points are not in the order of the grid. *)
Lemma C51_order_refuted_proof :
  exists eps rows ids p g n args net F,
    workable eps 2 1 rows ids p rows ids p /\
    mk_grid GPU eps p (repeat (1#1) 2) = Ok g /\ snd (mk_nbh (find_neighbors_tf GPU) g (repeat (1#1) 2) (Some p) 0) = Ok n /\
    mk_resnet 1 1 2 "MCConv" false (fun _ => args) (fun _ _ => 0%R) (fun _ _ => 0%R) = Ok net /\
    given (Feat 1 (inr F)) p 1 F /\ matrix (length ids) 1 F /\
    forall bandwidth, (0 < bandwidth)%R ->
      let call := fun nb => resnet_call GPU eps (find_neighbors_tf GPU) (compute_pdf_tf GPU) net (fun _ X => X) (fun X => X)
                              (Feat 1 (inr F)) p 1 nb bandwidth false false in
      (exists out, call None = Ok out) /\ (exists out, call (Some (DNbh n None)) = Ok out) /\ call None <> call (Some (DNbh n None)).
Proof.
  destruct exB_grid as (g & n & Eg & Es & En).
  destruct (mk_resnet 1 1 2 "MCConv" false (fun _ => exB_args) (fun _ _ => 0%R) (fun _ _ => 0%R)) as [net|] eqn:Enet; [|discriminate].
  exists (1#1000)%Q, exB_rows, exB_ids, exB_cloud, g, n, exB_args, net, exB_F.
  split; [exact exB_workable|]. split; [exact Eg|]. split; [exact En|]. split; [exact Enet|]. split; [exact exB_given|]. split; [exact exB_matrix|].
  intros bw Hb call.
  set (dens := density 2 (repeat bw 2) (repeat (1#1) 2) exB_rows exB_ids).
  assert (Hmx : largest (near_points 2 1 exB_rows exB_ids exB_rows exB_ids) 3 dens dens).
  { intros i Hi _. rewrite exB_near by exact Hi. split; [now left|]. constructor; [apply Rle_refl|constructor]. }
  assert (Hk : forall j : nat, keeps_shape (fun X : mat => X)) by (intros j m c X HX; exact HX).
  pose proof (C51_network_partial_proof (1#1000) 2 1 exB_rows exB_ids exB_cloud g n "MCConv" 1 1 (fun _ => exB_args) (fun _ x => Rmax 0 x) dens
    false (fun _ _ => 0%R) (fun _ _ => 0%R) net (fun _ X => X) (fun X => X) (Feat 1 (inr exB_F)) exB_F bw false false
    exB_workable Eg En Enet ltac:(lia) (fun _ => exB_activation) Hk (Hk 0) exB_given exB_matrix Hb Hmx) as Epass.
  destruct (C51_own_neighborhood_partial_proof (1#1000) 2 1 exB_rows exB_ids exB_cloud "MCConv" 1 1 (fun _ => exB_args) (fun _ x => Rmax 0 x) dens
    false (fun _ _ => 0%R) (fun _ _ => 0%R) net (fun _ X => X) (fun X => X) (Feat 1 (inr exB_F)) exB_F bw false false
    exB_workable Enet ltac:(lia) (fun _ => exB_activation) Hk (Hk 0) exB_given exB_matrix Hb Hmx) as (g' & Eg' & _ & Eown & _).
  rewrite Eg in Eg'. injection Eg' as <-. rewrite Es in Eown.
  fold (call (Some (DNbh n None))) in Epass. fold (call None) in Eown. rewrite Epass, Eown. clear Epass Eown.
  unfold returned. cbn [format_output snd]. split; [eauto|]. split; [eauto|]. intros E.
  apply (f_equal (fun o => match o with Ok (Feat _ (inr T)) => fval T 0 0 | _ => 0%R end)) in E. cbv beta iota in E.
  unfold residual_network in E. cbn [seq fold_left] in E. unfold mat_add in E. rewrite !fval_table in E by (cbn; lia).
  unfold two_convolutions, preactivation in E. change (length exB_ids) with 3 in E.
  rewrite !(exB_layer (near_points 2 1 exB_rows exB_ids exB_rows exB_ids) exB_rows _ _ 3 _ (fun i => i)) in E by (apply exB_near).
  rewrite !(exB_layer (fun i => near_points 2 1 exB_rows exB_ids exB_rows exB_ids (nth i [1; 2; 0] 0)) exB_rows _ _ 3 _ (fun i => nth i [1; 2; 0] 0)) in E
    by (intros i Hi; apply exB_near; do 3 (destruct i as [|i]; [cbn; lia|]); lia).
  rewrite ?fval_table in E by (cbn; lia). cbn [nth] in E. fold dens in E.
  rewrite ?fval_table in E by (cbn; lia). cbn [nth] in E.
  pose proof (exB_dens bw Hb 0 ltac:(lia)) as D0. pose proof (exB_dens bw Hb 1 ltac:(lia)) as D1. pose proof (exB_dens bw Hb 2 ltac:(lia)) as D2.
  fold dens in D0, D1, D2. unfold fval, exB_F, shortcut in E. cbn [nth] in E.
  assert (0 < 1 / dens 0%nat / dens 0%nat)%R by (apply Rdiv_lt_0_compat; [apply Rdiv_lt_0_compat|]; lra). unfold Rdiv in *. rewrite !Rmult_0_l in E. lra.
Qed.

(** C53. The same for the middle convolutions of the spatial bottle neck. *)
Lemma C53_order_refuted_proof :
  exists eps rows ids p g n args net F,
    workable eps 2 1 rows ids p rows ids p /\
    mk_grid GPU eps p (repeat (1#1) 2) = Ok g /\ snd (mk_nbh (find_neighbors_tf GPU) g (repeat (1#1) 2) (Some p) 0) = Ok n /\
    mk_spatial 1 1 2 "mc" false (fun _ => args) (fun _ _ => 0%R) (fun _ _ => 0%R) = Ok net /\
    given (Feat 1 (inr F)) p 1 F /\ matrix (length ids) 1 F /\
    forall bandwidth, (0 < bandwidth)%R ->
      let call := fun nbs => spatial_call GPU eps (find_neighbors_tf GPU) (compute_pdf_tf GPU) net (fun _ X => X) (fun X => X)
                              (Feat 1 (inr F)) p p 1 1 1 nbs bandwidth false false in
      (exists out, call None = Ok out) /\ (exists out, call (Some (DNbh n None, DNbh n None, DNbh n None)) = Ok out) /\
      call None <> call (Some (DNbh n None, DNbh n None, DNbh n None)).
Proof.
  destruct exB_grid as (g & n & Eg & Es & En).
  destruct (mk_spatial 1 1 2 "mc" false (fun _ => exB_args) (fun _ _ => 0%R) (fun _ _ => 0%R)) as [net|] eqn:Enet; [|discriminate].
  exists (1#1000)%Q, exB_rows, exB_ids, exB_cloud, g, n, exB_args, net, exB_F.
  split; [exact exB_workable|]. split; [exact Eg|]. split; [exact En|]. split; [exact Enet|]. split; [exact exB_given|]. split; [exact exB_matrix|].
  intros bw Hb call.
  set (dens := density 2 (repeat bw 2) (repeat (1#1) 2) exB_rows exB_ids).
  assert (Hmx : largest (near_points 2 1 exB_rows exB_ids exB_rows exB_ids) 3 dens dens).
  { intros i Hi _. rewrite exB_near by exact Hi. split; [now left|]. constructor; [apply Rle_refl|constructor]. }
  assert (Hk : forall j : nat, keeps_shape (fun X : mat => X)) by (intros j m c X HX; exact HX).
  pose proof (fun nbs at_ H => C53_network_partial_proof (1#1000) 2 1 1 1 exB_rows exB_ids exB_cloud exB_rows exB_ids exB_cloud g n g n g n
    "mc" 1 1 (fun _ => exB_args) (fun _ x => Rmax 0 x) dens dens dens
    false (fun _ _ => 0%R) (fun _ _ => 0%R) net (fun _ X => X) (fun X => X) (Feat 1 (inr exB_F)) exB_F bw false false nbs at_
    exB_workable exB_workable exB_workable Eg En Eg En Eg En H (fun _ => eq_refl) Enet ltac:(lia) (fun _ => conj exB_activation exB_activation)
    Hk (Hk 0) exB_given exB_matrix Hb Hmx Hmx Hmx) as E.
  pose proof (E _ _ (or_introl (conj eq_refl eq_refl))) as Epass. pose proof (E _ _ (or_intror (conj eq_refl eq_refl))) as Eown. clear E.
  rewrite Es in Eown.
  fold (call (Some (DNbh n None, DNbh n None, DNbh n None))) in Epass. fold (call None) in Eown. rewrite Epass, Eown. clear Epass Eown.
  unfold returned. cbn [format_output snd]. split; [eauto|]. split; [eauto|]. intros E.
  apply (f_equal (fun o => match o with Ok (Feat _ (inr T)) => fval T 0 0 | _ => 0%R end)) in E. cbv beta iota in E.
  unfold residual_network in E. cbn [seq fold_left] in E. unfold mat_add in E. rewrite !fval_table in E by (cbn; lia).
  unfold coarse_convolution, preactivation in E. change (length exB_ids) with 3 in E.
  rewrite !(exB_layer (near_points 2 1 exB_rows exB_ids exB_rows exB_ids) exB_rows _ _ 3 _ (fun i => i)) in E by (apply exB_near).
  rewrite !(exB_layer (fun i => near_points 2 1 exB_rows exB_ids exB_rows exB_ids (nth i [1; 2; 0] 0)) exB_rows _ _ 3 _ (fun i => nth i [1; 2; 0] 0)) in E
    by (intros i Hi; apply exB_near; do 3 (destruct i as [|i]; [cbn; lia|]); lia).
  rewrite ?fval_table in E by (cbn; lia). cbn [nth] in E. fold dens in E.
  rewrite ?fval_table in E by (cbn; lia). cbn [nth] in E.
  rewrite ?fval_table in E by (cbn; lia). cbn [nth] in E.
  pose proof (exB_dens bw Hb 0 ltac:(lia)) as D0. pose proof (exB_dens bw Hb 1 ltac:(lia)) as D1. pose proof (exB_dens bw Hb 2 ltac:(lia)) as D2.
  fold dens in D0, D1, D2. unfold fval, exB_F, shortcut in E. cbn [nth] in E.
  assert (0 < 1 / dens 0%nat / dens 0%nat / dens 0%nat)%R
    by (apply Rdiv_lt_0_compat; [apply Rdiv_lt_0_compat; [apply Rdiv_lt_0_compat|]|]; lra). unfold Rdiv in *. rewrite !Rmult_0_l in E. lra.
Qed.

(** * Examples *)
Definition exB_point (k : nat) : layer_args :=
  APT 8 "leaky_relu" (fun _ => 1%R) (fun _ => 0%R) (fun idx => INR (k + hd 0 idx)) (fun _ => 1%R) (fun _ => 0%R) (fun _ => 1%R) (fun _ => 1%R).
Definition exB_mc (k : nat) : layer_args :=
  AMC 2 [3; 5] "ELU" (fun j idx => INR (j + k + hd 0 idx)) (fun _ _ => 0%R) (fun idx => INR (hd 0 idx)).
Lemma exN_matrix : matrix 6 2 exN_F.
Proof. split; repeat constructor. Qed.
Lemma largest_exists nb n dens : exists mx, largest nb n dens mx.
Proof.
  exists (fun i => fold_right Rmax (hd 0%R (map dens (nb i))) (map dens (nb i))). intros i _ Hne.
  assert (Hm : forall (l : list R) a, In (fold_right Rmax a l) (a :: l) /\ Forall (fun x => x <= fold_right Rmax a l)%R l).
  { intros l a. induction l as [|b l [I1 I2]]; [split; [now left|constructor]|]. cbn [fold_right]. split.
    - unfold Rmax at 1. destruct (Rle_dec b (fold_right Rmax a l)); [|right; now left]. destruct I1 as [I1|I1]; [now left|right; now right].
    - constructor; [apply Rmax_l|]. eapply Forall_impl; [|exact I2]. cbn. intros x Hx. eapply Rle_trans; [exact Hx|apply Rmax_r]. }
  destruct (map dens (nb i)) as [|x l] eqn:E; [apply map_eq_nil in E; contradiction|].
  destruct (Hm (x :: l) x) as [H1 H2]. split; [|exact H2]. cbn [hd]. destruct H1 as [H1|H1]; [rewrite <- H1; now left|exact H1].
Qed.
Lemma relu_keeps : keeps_shape (map (map (Rmax 0))).
Proof.
  intros n c X [E H]. split; [now rewrite map_length|]. apply Forall_map. eapply Forall_impl; [|exact H]. cbn. intros l Hl. now rewrite map_length.
Qed.
Lemma identity_keeps : keeps_shape (fun X => X).
Proof. intros n c X H. exact H. Qed.

Notation exN_p := (seg 2 exN_rows exN_ids 2).
Notation exN_q := (seg 2 exN_centers exN_cids 2).
Definition leaky (x : R) : R := if Rlt_dec 0 x then x else (2 / 10 * x)%R.
Lemma exB_point_applicable n k : 2 <= n -> applicable n (exB_point k) leaky.
Proof.
  intros Hn. split; [|lia]. right. left. split; [apply means_lower; [repeat constructor|right; right; now left]|reflexivity].
Qed.
Lemma exN_grid : exists g n, mk_grid GPU (1#1000) exN_p (repeat (1#1) 2) = Ok g /\ gsidx g = [4; 5; 3; 2; 0; 1] /\
  snd (mk_nbh (find_neighbors_tf GPU) g (repeat (1#1) 2) (Some exN_p) 0) = Ok n.
Proof.
  destruct (mk_grid GPU (1#1000) exN_p (repeat (1#1) 2)) as [g|] eqn:Eg; [|vm_compute in Eg; discriminate].
  vm_compute in Eg. injection Eg as <-. eexists. eexists. split; [reflexivity|]. split; [reflexivity|]. vm_compute. reflexivity.
Qed.

(** Two blocks of PointConv layers with projections on six points in two
    batch elements with two features. *)
Example C51_network_partial_ex_proof : exists g n net mx,
  workable (1#1000) 2 1 exN_rows exN_ids exN_p exN_rows exN_ids exN_p /\
  mk_grid GPU (1#1000) exN_p (repeat (1#1) 2) = Ok g /\ snd (mk_nbh (find_neighbors_tf GPU) g (repeat (1#1) 2) (Some exN_p) 0) = Ok n /\
  mk_resnet 2 2 2 "PointConv" true exB_point (fun k idx => INR (k + hd 0 idx)) (fun _ _ => 1%R) = Ok net /\
  (forall k, applicable 6 (exB_point k) leaky) /\ keeps_shape (map (map (Rmax 0))) /\
  given (Feat 2 (inr exN_F)) exN_p 2 exN_F /\ matrix 6 2 exN_F /\
  largest (near_points 2 1 exN_rows exN_ids exN_rows exN_ids) 6 (density 2 (repeat 1%R 2) (repeat (1#1) 2) exN_rows exN_ids) mx /\
  map (near_points 2 1 exN_rows exN_ids exN_rows exN_ids) (seq 0 6) = [[0; 1]; [0; 1]; [2]; [3]; [4; 5]; [4; 5]].
Proof.
  destruct exN_grid as (g & n & Eg & _ & En).
  destruct (largest_exists (near_points 2 1 exN_rows exN_ids exN_rows exN_ids) 6 (density 2 (repeat 1%R 2) (repeat (1#1) 2) exN_rows exN_ids)) as [mx Hmx].
  exists g, n. eexists. exists mx. split; [exact exN_self|]. split; [exact Eg|]. split; [exact En|]. split; [reflexivity|].
  split; [intros k; apply exB_point_applicable; lia|]. split; [exact relu_keeps|]. split; [exact exN_given|]. split; [exact exN_matrix|].
  split; [exact Hmx|]. vm_compute. reflexivity.
Qed.

(** The same network without a neighborhood; these points are not in the order
    of the grid. The second cloud is. *)
Example C51_own_neighborhood_partial_ex_proof : exists g net mx,
  workable (1#1000) 2 1 exN_rows exN_ids exN_p exN_rows exN_ids exN_p /\
  mk_resnet 2 2 2 "PointConv" true exB_point (fun k idx => INR (k + hd 0 idx)) (fun _ _ => 1%R) = Ok net /\
  (forall k, applicable 6 (exB_point k) leaky) /\ keeps_shape (map (map (Rmax 0))) /\
  given (Feat 2 (inr exN_F)) exN_p 2 exN_F /\ matrix 6 2 exN_F /\
  largest (near_points 2 1 exN_rows exN_ids exN_rows exN_ids) 6 (density 2 (repeat 1%R 2) (repeat (1#1) 2) exN_rows exN_ids) mx /\
  mk_grid GPU (1#1000) exN_p (repeat (1#1) 2) = Ok g /\ gsidx g = [4; 5; 3; 2; 0; 1] /\
  exists h, mk_grid GPU (1#1000) (seg 2 [[3#1; 1#2]; [1#1; 5#1]; [0#1; 0#1]] [0; 0; 0] 1) (repeat (1#1) 2) = Ok h /\ gsidx h = seq 0 3.
Proof.
  destruct exN_grid as (g & n & Eg & Es & En).
  destruct (largest_exists (near_points 2 1 exN_rows exN_ids exN_rows exN_ids) 6 (density 2 (repeat 1%R 2) (repeat (1#1) 2) exN_rows exN_ids)) as [mx Hmx].
  exists g. eexists. exists mx. split; [exact exN_self|]. split; [reflexivity|].
  split; [intros k; apply exB_point_applicable; lia|]. split; [exact relu_keeps|]. split; [exact exN_given|]. split; [exact exN_matrix|].
  split; [exact Hmx|]. split; [exact Eg|]. split; [exact Es|].
  match goal with |- exists h, ?e = Ok h /\ _ => destruct e as [h|] eqn:E; [|vm_compute in E; discriminate] end.
  exists h. split; [reflexivity|]. vm_compute in E. injection E as <-. reflexivity.
Qed.

Example C51_names_ex_proof :
  (~ means "Conv2D" ["mcconv"; "mc"; "mc_conv"; "kpconv"; "kp"; "kp_conv"; "pointconv"; "point_conv"]%string) /\
  means "Point_Conv" ["pointconv"; "point_conv"]%string /\ means "MC" ["mcconv"; "mc"; "mc_conv"]%string /\
  mk_resnet 4 3 2 "Conv2D" true exB_mc (fun _ _ => 1%R) (fun _ _ => 1%R) = Err KeyError /\
  (exists net, mk_resnet 4 3 2 "MC" true exB_mc (fun _ _ => 1%R) (fun _ _ => 1%R) = Ok net /\ length (rn_blocks net) = 3) /\
  (exists net, mk_spatial 4 2 3 "Point_Conv" false exB_point (fun _ _ => 1%R) (fun _ _ => 1%R) = Ok net /\ length (sp_blocks net) = 2).
Proof.
  split; [intros H; apply means_lower in H; [|repeat constructor]; cbn in H; repeat destruct H as [H|H]; try discriminate; exact H|].
  split; [apply means_lower; [repeat constructor|right; now left]|]. split; [apply means_lower; [repeat constructor|right; now left]|].
  split; [reflexivity|]. split; eexists; split; reflexivity.
Qed.

(** A network of two kernel point layers; its calls raise TypeError. *)
Definition exB_kernel : layer_args :=
  AKP 3 false "linear" (Some (of_rows 2 [[0%R; 0%R]; [1%R; 0%R]; [0%R; 1%R]])) (fun _ => Err ValueError) (fun _ => 1%R) (fun _ => 0%R).
Example C51_kernel_points_refuted_ex_proof : exists net,
  means "KPConv" ["kpconv"; "kp"; "kp_conv"]%string /\
  mk_resnet 2 1 2 "KPConv" false (fun _ => exB_kernel) (fun _ _ => 1%R) (fun _ _ => 1%R) = Ok net /\
  resnet_call GPU (1#1000) (find_neighbors_tf GPU) (compute_pdf_tf GPU) net (fun _ X => X) (fun X => X) (Feat 2 (inr exN_F)) exN_p 1 None 1
    false false = Err TypeError.
Proof.
  destruct (mk_resnet 2 1 2 "KPConv" false (fun _ => exB_kernel) (fun _ _ => 1%R) (fun _ _ => 1%R)) as [net|] eqn:E; [|cbn in E; discriminate].
  exists net. split; [apply means_lower; [repeat constructor|now left]|]. split; [reflexivity|].
  apply mk_resnet_inv in E as (t & bs & Et & -> & Eb). injection Et as <-. apply build_cons in Eb as (b & rest & -> & Eb & _).
  cbn [new_layer exB_kernel] in Eb. unfold exB_kernel in Eb.
  destruct (mk_kpconv _ _ _ _ _ _ _ _ _ _) as [l|]; [|discriminate]. cbn [bind mk_shortcut] in Eb. injection Eb as <-.
  unfold resnet_call. rewrite (given_rows_ten _ _ _ _ _ exN_given exN_matrix). cbn [bind rn_dims rn_blocks].
  destruct (own_nbh GPU (1#1000) (find_neighbors_tf GPU) 2 exN_p 1) as [x|] eqn:Eo; [|vm_compute in Eo; discriminate].
  cbn [bind resnet_loop]. reflexivity.
Qed.

Example C52_constructor_refuted_ex_proof :
  mk_bottle_neck 4 2 1 2 "mc" true exB_mc (fun _ _ => 1%R) (fun _ _ => 1%R) (fun _ _ => 1%R) (fun _ _ => 1%R) (fun _ _ => 1%R) (fun _ _ => 1%R)
    = Err TypeError /\
  exists l, new_layer 2 2 2 TMC (exB_mc 0) = Ok l.
Proof. split; [reflexivity|]. eexists. reflexivity. Qed.

(** Two blocks with two features narrowed to four channels. *)
Example C52_call_partial_ex_proof : exists g n mx l0 l1 d u,
  workable (1#1000) 2 1 exN_rows exN_ids exN_p exN_rows exN_ids exN_p /\
  mk_grid GPU (1#1000) exN_p (repeat (1#1) 2) = Ok g /\ snd (mk_nbh (find_neighbors_tf GPU) g (repeat (1#1) 2) (Some exN_p) 0) = Ok n /\
  (let bs := [(l0, None, d, u); (l1, None, d, u)] in
   forall k, k < length bs -> exists l s d u, nth_error bs k = Some (l, s, d, u) /\
     new_layer 4 4 2 TPT (exB_point k) = Ok l /\ mk_shortcut false 2 (fun _ _ => 0%R) (fun _ _ => 0%R) k = Ok s /\
     mk_conv1x1 2 4 (fun _ => 1%R) (fun _ => 0%R) = Ok d /\ mk_conv1x1 4 2 (fun _ => 1%R) (fun _ => 0%R) = Ok u) /\
  (forall k, applicable 6 (exB_point k) leaky) /\ keeps_shape (map (map (Rmax 0))) /\
  given (Feat 2 (inr exN_F)) exN_p 2 exN_F /\ matrix 6 2 exN_F /\
  largest (near_points 2 1 exN_rows exN_ids exN_rows exN_ids) 6 (density 2 (repeat 1%R 2) (repeat (1#1) 2) exN_rows exN_ids) mx.
Proof.
  destruct exN_grid as (g & n & Eg & _ & En).
  destruct (largest_exists (near_points 2 1 exN_rows exN_ids exN_rows exN_ids) 6 (density 2 (repeat 1%R 2) (repeat (1#1) 2) exN_rows exN_ids)) as [mx Hmx].
  destruct (new_layer 4 4 2 TPT (exB_point 0)) as [l0|] eqn:E0; [|discriminate].
  destruct (new_layer 4 4 2 TPT (exB_point 1)) as [l1|] eqn:E1; [|discriminate].
  destruct (mk_conv1x1 2 4 (fun _ => 1%R) (fun _ => 0%R)) as [d|] eqn:Ed; [|discriminate].
  destruct (mk_conv1x1 4 2 (fun _ => 1%R) (fun _ => 0%R)) as [u|] eqn:Eu; [|discriminate].
  exists g, n, mx, l0, l1, d, u. split; [exact exN_self|]. split; [exact Eg|]. split; [exact En|].
  split; [intros bs k Hk; do 2 (destruct k as [|k]; [eexists; exists None, d, u; split; [reflexivity|]; split; [first [eassumption|reflexivity]|]; split; [reflexivity|]; split; first [assumption|reflexivity]|]); cbn in Hk; lia|].
  split; [intros k; apply exB_point_applicable; lia|]. split; [exact relu_keeps|]. split; [exact exN_given|]. split; [exact exN_matrix|]. exact Hmx.
Qed.

Lemma exN_centers_self : workable (1#1000) 2 1 exN_centers exN_cids exN_q exN_centers exN_cids exN_q.
Proof.
  constructor.
  - exists 2. split; [apply seg_cloud; repeat constructor|]. split; [repeat constructor|].
    exists [110%Z;4%Z]. split; [reflexivity|]. split; [vm_compute; discriminate|]. intros d Hd. destruct d as [|[|d]]; [| |lia]; (split; [cbn; lia|]);
    intros i j Hi Hj _; cbn in Hi, Hj;
    do 5 (destruct i as [|i]; [do 5 (destruct j as [|j]; [vm_compute; discriminate|]); lia|]); lia.
  - exists (1#1000), 2. apply seg_cloud; repeat constructor.
  - lia.
  - reflexivity.
  - split; vm_compute; congruence.
  - split; [discriminate|vm_compute; reflexivity].
  - discriminate.
Qed.
Lemma exN_centers_to : workable (1#1000) 2 1 exN_centers exN_cids exN_q exN_rows exN_ids exN_p.
Proof.
  destruct exN_centers_self as [(B & H1 & _ & H2) _ H3 H4 H5 H6 _]. constructor; auto; [|exists (1#1000), 2; apply seg_cloud; repeat constructor|discriminate].
  exists 2. split; [apply seg_cloud; repeat constructor|]. split; [repeat constructor|].
  assert (B = 2); [|subst B; exact H2]. apply (cloud_is _ _ _ _ _ _ _) in H1. rewrite <- (ic_bsize _ _ _ _ _ _ _ H1). reflexivity.
Qed.

(** Two blocks from six points to five and back. *)
Example C53_network_partial_ex_proof : exists g0 n0 g1 n1 n2 net mx0 mx1 mx2,
  workable (1#1000) 2 1 exN_rows exN_ids exN_p exN_centers exN_cids exN_q /\
  workable (1#1000) 2 1 exN_centers exN_cids exN_q exN_centers exN_cids exN_q /\
  workable (1#1000) 2 1 exN_centers exN_cids exN_q exN_rows exN_ids exN_p /\
  mk_grid GPU (1#1000) exN_p (repeat (1#1) 2) = Ok g0 /\ snd (mk_nbh (find_neighbors_tf GPU) g0 (repeat (1#1) 2) (Some exN_q) 0) = Ok n0 /\
  mk_grid GPU (1#1000) exN_q (repeat (1#1) 2) = Ok g1 /\ snd (mk_nbh (find_neighbors_tf GPU) g1 (repeat (1#1) 2) (Some exN_q) 0) = Ok n1 /\
  snd (mk_nbh (find_neighbors_tf GPU) g1 (repeat (1#1) 2) (Some exN_p) 0) = Ok n2 /\
  mk_spatial 2 2 2 "PointConv" true exB_point (fun k idx => INR (k + hd 0 idx)) (fun _ _ => 1%R) = Ok net /\
  (forall k, applicable 5 (exB_point k) leaky /\ applicable 6 (exB_point k) leaky) /\ keeps_shape (map (map (Rmax 0))) /\
  given (Feat 2 (inr exN_F)) exN_p 2 exN_F /\ matrix 6 2 exN_F /\
  largest (near_points 2 1 exN_rows exN_ids exN_centers exN_cids) 5 (density 2 (repeat 1%R 2) (repeat (1#1) 2) exN_rows exN_ids) mx0 /\
  largest (near_points 2 1 exN_centers exN_cids exN_centers exN_cids) 5 (density 2 (repeat 1%R 2) (repeat (1#1) 2) exN_centers exN_cids) mx1 /\
  largest (near_points 2 1 exN_centers exN_cids exN_rows exN_ids) 6 (density 2 (repeat 1%R 2) (repeat (1#1) 2) exN_centers exN_cids) mx2 /\
  map (near_points 2 1 exN_centers exN_cids exN_rows exN_ids) (seq 0 6) = [[0]; [1]; []; []; [4]; []].
Proof.
  destruct (largest_exists (near_points 2 1 exN_rows exN_ids exN_centers exN_cids) 5 (density 2 (repeat 1%R 2) (repeat (1#1) 2) exN_rows exN_ids)) as [mx0 M0].
  destruct (largest_exists (near_points 2 1 exN_centers exN_cids exN_centers exN_cids) 5 (density 2 (repeat 1%R 2) (repeat (1#1) 2) exN_centers exN_cids)) as [mx1 M1].
  destruct (largest_exists (near_points 2 1 exN_centers exN_cids exN_rows exN_ids) 6 (density 2 (repeat 1%R 2) (repeat (1#1) 2) exN_centers exN_cids)) as [mx2 M2].
  destruct (mk_grid GPU (1#1000) exN_p (repeat (1#1) 2)) as [g0|] eqn:Eg0; [|vm_compute in Eg0; discriminate].
  destruct (mk_grid GPU (1#1000) exN_q (repeat (1#1) 2)) as [g1|] eqn:Eg1; [|vm_compute in Eg1; discriminate].
  destruct (snd (mk_nbh (find_neighbors_tf GPU) g0 (repeat (1#1) 2) (Some exN_q) 0)) as [n0|] eqn:En0;
    [|vm_compute in Eg0; injection Eg0 as <-; vm_compute in En0; discriminate].
  destruct (snd (mk_nbh (find_neighbors_tf GPU) g1 (repeat (1#1) 2) (Some exN_q) 0)) as [n1|] eqn:En1;
    [|vm_compute in Eg1; injection Eg1 as <-; vm_compute in En1; discriminate].
  destruct (snd (mk_nbh (find_neighbors_tf GPU) g1 (repeat (1#1) 2) (Some exN_p) 0)) as [n2|] eqn:En2;
    [|vm_compute in Eg1; injection Eg1 as <-; vm_compute in En2; discriminate].
  exists g0, n0, g1, n1, n2. eexists. exists mx0, mx1, mx2. split; [exact exN_workable|]. split; [exact exN_centers_self|]. split; [exact exN_centers_to|].
  split; [reflexivity|]. split; [exact En0|]. split; [reflexivity|]. split; [exact En1|]. split; [exact En2|]. split; [reflexivity|].
  split; [intros k; split; apply exB_point_applicable; lia|]. split; [exact relu_keeps|]. split; [exact exN_given|]. split; [exact exN_matrix|].
  split; [exact M0|]. split; [exact M1|]. split; [exact M2|]. vm_compute. reflexivity.
Qed.
