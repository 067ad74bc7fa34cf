(** Proofs that a layer gives the points of a cloud the same features in any
    batch, in any order, at any place and on any device (C68). The statements
    are copied into PropertiesLayerMatch.v. *)
From Coq Require Import String List Arith ZArith NArith QArith Reals Qreals Lia Lra Bool Permutation.
From Verif Require Import GpuBasis GpuPdf Cuda GpuGrid Tensor TensorFacts Spec SpecText TextFacts PointCloud SpecCloud PointCloudFacts QFacts Grid SpecGrid GridFacts
  Neighbors SpecNeighbors NeighborFacts NeighborProofs Neighborhood NeighborhoodFacts NeighborhoodProofs
  Sampling SpecSampling SamplingFacts SamplingProofs Hierarchy SpecHierarchy HierarchyFacts Pdf SpecPdf PdfFacts PdfProofs
  RTensor RTensorFacts Layers SpecLayers LayerFacts LayerLink LayerProofs ConvProofs MoveProofs BlockFacts
  SpecMatch MatchFacts SpecLayerMatch GpuPdfProofs CudaLayers SpecCudaLayers CudaLayerProofs.
Import ListNotations.
Local Open Scope nat_scope.

Section Match.
  Context (D : nat) (r : Q) (t : nat -> Q) (e e2 : nat) (rows : list point) (ids : list nat) (crows : list point) (cids : list nat)
    (rows2 : list point) (ids2 : list nat) (crows2 : list point) (cids2 : list nat) (ps qs : list (nat * nat)) (F F2 : list (list R)).
  Context (HU : matched D t e (rows, ids) e2 (rows2, ids2) ps) (HL : matched D t e (crows, cids) e2 (crows2, cids2) qs)
    (HF : rows_match ps F F2).

  Lemma outs C f f2 : (forall i i2 c, In (i, i2) qs -> c < C -> f i c = f2 i2 c) ->
    outputs_match C (length cids) (length cids2) qs (Feat C (inr (table (length cids) C f))) (Feat C (inr (table (length cids2) C f2))).
  Proof using HL.
    intros H. do 2 eexists. split; [reflexivity|]. split; [reflexivity|]. split; [apply matrix_table|]. split; [apply matrix_table|].
    exact (mt_table D t e e2 (crows, cids) (crows2, cids2) qs HL C f f2 H).
  Qed.
  Lemma outs_scaled k C f f2 : (forall i i2 c, In (i, i2) qs -> c < C -> (k * f i c)%R = f2 i2 c) ->
    outputs_scaled k C (length cids) (length cids2) qs (Feat C (inr (table (length cids) C f))) (Feat C (inr (table (length cids2) C f2))).
  Proof using HL.
    intros H. do 2 eexists. split; [reflexivity|]. split; [reflexivity|]. split; [apply matrix_table|]. split; [apply matrix_table|].
    replace (map (map (Rmult k)) (table (length cids) C f)) with (table (length cids) C (fun i c => k * f i c)%R).
    - exact (mt_table D t e e2 (crows, cids) (crows2, cids2) qs HL C _ f2 H).
    - unfold table. rewrite map_map. apply map_ext. intros i. now rewrite map_map.
  Qed.
  Lemma dens_match bw j j2 : In (j, j2) ps ->
    density D (repeat bw D) (repeat r D) rows ids j = density D (repeat bw D) (repeat r D) rows2 ids2 j2.
  Proof using HU. exact (mt_density D t e e2 (rows, ids) (rows2, ids2) ps _ _ j j2 HU). Qed.
  Lemma mc_match cin cout mlps sizes a w b fw bw i i2 o : sizes <> [] -> In (i, i2) qs ->
    mc_formula D r rows ids crows cids F cin cout mlps sizes a w b fw r (fun p _ => density D (repeat bw D) (repeat r D) rows ids p) i o
    = mc_formula D r rows2 ids2 crows2 cids2 F2 cin cout mlps sizes a w b fw r (fun p _ => density D (repeat bw D) (repeat r D) rows2 ids2 p) i2 o.
  Proof using HU HL HF.
    intros Hs Hi. apply (mt_mc D t e e2 (rows, ids) (crows, cids) (rows2, ids2) (crows2, cids2) ps qs HU HL F F2 HF); [exact Hs|exact Hi|].
    intros j j2 Hj. now apply dens_match.
  Qed.
  Definition top (rw : list point) (iw : list nat) (cw : list point) (ciw : list nat) (bw : R) (i : nat) : R :=
    red_max (map (density D (repeat bw D) (repeat r D) rw iw) (near_points D r rw iw cw ciw i)).
  Lemma top_ok rw iw cw ciw bw i : 2 <= D -> (0 < r)%Q -> (0 < bw)%R -> near_points D r rw iw cw ciw i <> [] ->
    is_max (map (density D (repeat bw D) (repeat r D) rw iw) (near_points D r rw iw cw ciw i)) (top rw iw cw ciw bw i).
  Proof using.
    intros HD Hr Hb Hne. apply dens_max; auto. apply Forall_forall. intros j Hj. unfold near_points in Hj. apply filter_In in Hj as [Hj _].
    apply in_seq in Hj. lia.
  Qed.
  Lemma pt_match cin H a axis bias w w1 b1 w2 bb2 bw i i2 o : In (i, i2) qs ->
    pt_formula D r rows ids crows cids F cin H a axis bias w w1 b1 w2 bb2 (fun p _ => density D (repeat bw D) (repeat r D) rows ids p)
      (top rows ids crows cids bw) i o
    = pt_formula D r rows2 ids2 crows2 cids2 F2 cin H a axis bias w w1 b1 w2 bb2 (fun p _ => density D (repeat bw D) (repeat r D) rows2 ids2 p)
      (top rows2 ids2 crows2 cids2 bw) i2 o.
  Proof using HU HL HF.
    intros Hi. apply (mt_pt D t e e2 (rows, ids) (crows, cids) (rows2, ids2) (crows2, cids2) ps qs HU HL F F2 HF); [exact Hi| |].
    - intros j j2 Hj. now apply dens_match.
    - unfold top. apply red_max_perm.
      apply (mt_values D t e e2 (rows, ids) (crows, cids) (rows2, ids2) (crows2, cids2) ps qs HU HL); [exact Hi|].
      intros j j2 Hj. now apply dens_match.
  Qed.
  Lemma pool_match (red : list R -> R) i i2 c : (forall l m, Permutation l m -> red l = red m) -> In (i, i2) qs ->
    red (map (fun j => fval F j c) (near_points D r rows ids crows cids i))
    = red (map (fun j => fval F2 j c) (near_points D r rows2 ids2 crows2 cids2 i2)).
  Proof using HU HL HF.
    intros Hr Hi. apply Hr. apply (mt_values D t e e2 (rows, ids) (crows, cids) (rows2, ids2) (crows2, cids2) ps qs HU HL); [exact Hi|].
    intros j j2 Hj. unfold fval. now rewrite (HF j j2 Hj).
  Qed.
  Lemma kp_match cin K deformable (wt : R -> R -> R) (kernel_points : nat -> nat -> R) w wo (sigma : R) i i2 o : In (i, i2) qs ->
    let start := fun (_ k d : nat) => (kernel_points k d * (3 / 4))%R in
    let conv := kp_formula D r rows ids crows cids F cin K in
    let conv2 := kp_formula D r rows2 ids2 crows2 cids2 F2 cin K in
    let positions := fun i k d => if deformable : bool then (start i k d + conv wo (fun v => wt v sigma) start r i (k * D + d)%nat)%R else start i k d in
    let positions2 := fun i k d => if deformable : bool then (start i k d + conv2 wo (fun v => wt v sigma) start r i (k * D + d)%nat)%R else start i k d in
    conv w (fun v => wt v sigma) positions r i o = conv2 w (fun v => wt v sigma) positions2 r i2 o.
  Proof using HU HL HF.
    intros Hi start conv conv2 positions positions2.
    apply (mt_kp D t e e2 (rows, ids) (crows, cids) (rows2, ids2) (crows2, cids2) ps qs HU HL F F2 HF); [exact Hi|].
    intros k d Hk Hd. unfold positions, positions2. destruct deformable; [|reflexivity]. f_equal.
    apply (mt_kp D t e e2 (rows, ids) (crows, cids) (rows2, ids2) (crows2, cids2) ps qs HU HL F F2 HF); [exact Hi|reflexivity].
  Qed.
End Match.

(** C68. Two calls of a layer with the CUDA operations, on two devices, with any
    interleavings of the threads and with two batches: if element [e] of the
    first batch and element [e2] of the second are the same cloud with the same
    features and the same output points up to the order of the points and a
    translation, then paired output points have the same output features. *)
Lemma C68_cuda_proof :
  forall active pactive bactive warp time active2 pactive2 bactive2 warp2 time2 eps eps2 D r t e e2
         rows ids pin crows cids pout rows2 ids2 pin2 crows2 cids2 pout2 ps qs feats feats2 cin F F2,
    device_ok active pactive bactive warp -> device_ok active2 pactive2 bactive2 warp2 ->
    cuda_workable (scan_limit active warp) eps D r rows ids pin crows cids pout ->
    cuda_workable (scan_limit active2 warp2) eps2 D r rows2 ids2 pin2 crows2 cids2 pout2 ->
    given feats pin cin F -> given feats2 pin2 cin F2 ->
    matched D t e (rows, ids) e2 (rows2, ids2) ps -> matched D t e (crows, cids) e2 (crows2, cids2) qs -> rows_match ps F F2 ->
    let agree := fun cout => outputs_match cout (length cids) (length cids2) qs in
    (forall cout mlps sizes act a w b fw layer bandwidth,
       length ids <= scan_limit active warp -> length ids2 <= scan_limit active2 warp2 ->
       mk_mcconv cin cout D mlps sizes act w b fw = Ok layer -> 0 < cout -> activation act a -> (0 < bandwidth)%R ->
       SpecGpuBasis.supported (last sizes 0 * mlps) cin ->
       mcconv_gpu active pactive bactive warp time eps layer feats pin pout r None bandwidth false false (fun o =>
         mcconv_gpu active2 pactive2 bactive2 warp2 time2 eps2 layer feats2 pin2 pout2 r None bandwidth false false (fun o2 => agree cout o o2))) /\
    (forall cout K deformable interpolation wt kernel_points w wo spherical layer influence,
       mk_kpconv cin cout K D deformable interpolation
         (Some (ttab [K; D] (fun idx => match idx with [k; d] => kernel_points k d | _ => 0%R end))) spherical w wo = Ok layer ->
       0 < cin /\ (cin < 8 \/ cin mod 8 = 0) -> 0 < K <= 64 -> weighting interpolation wt ->
       kpconv_gpu active bactive warp time eps layer feats pin pout r None influence false false (fun o _ =>
         kpconv_gpu active2 bactive2 warp2 time2 eps2 layer feats2 pin2 pout2 r None influence false false (fun o2 _ => agree cout o o2))) /\
    (forall cout hidden act a axis bias w w1 b1 w2 b2 bandwidth,
       length ids <= scan_limit active warp -> length ids2 <= scan_limit active2 warp2 ->
       SpecGpuBasis.supported hidden cin -> activation act a -> (0 < bandwidth)%R ->
       let layer := mk_pointconv cin cout D hidden act axis bias w w1 b1 w2 b2 in
       pointconv_gpu active pactive bactive warp time eps layer feats pin pout r None bandwidth false false (fun o =>
         pointconv_gpu active2 pactive2 bactive2 warp2 time2 eps2 layer feats2 pin2 pout2 r None bandwidth false false (fun o2 => agree cout o o2))) /\
    max_pooling_gpu active warp time eps feats pin pout (Some [r]) false false (fun o =>
      max_pooling_gpu active2 warp2 time2 eps2 feats2 pin2 pout2 (Some [r]) false false (fun o2 => agree cin o o2)) /\
    average_pooling_gpu active warp time eps feats pin pout (Some [r]) false false (fun o =>
      average_pooling_gpu active2 warp2 time2 eps2 feats2 pin2 pout2 (Some [r]) false false (fun o2 => agree cin o o2)).
Proof.
  intros active pactive bactive warp time active2 pactive2 bactive2 warp2 time2 eps eps2 D r t e e2
    rows ids pin crows cids pout rows2 ids2 pin2 crows2 cids2 pout2 ps qs feats feats2 cin F F2 Hd Hd2 W W2 Hg Hg2 HU HL HF agree.
  split; [|split; [|split; [|split]]].
  - intros cout mlps sizes act a w b fw layer bw Hn Hn2 El Hc Ha Hb Hs.
    eapply (mcconv_runs active pactive bactive warp time eps); [exact Hd|exact W|exact Hn|exact El|exact Hc|exact Ha|exact Hs|exact Hg|exact Hb|reflexivity|].
    eapply (mcconv_runs active2 pactive2 bactive2 warp2 time2 eps2); [exact Hd2|exact W2|exact Hn2|exact El|exact Hc|exact Ha|exact Hs|exact Hg2|exact Hb|reflexivity|].
    unfold agree. apply (outs D t e e2 crows cids crows2 cids2 qs HL). intros i i2 c Hi _. f_equal.
    apply (mc_match D r t e e2 rows ids crows cids rows2 ids2 crows2 cids2 ps qs F F2 HU HL HF); [|exact Hi].
    apply mk_mcconv_inv in El. tauto.
  - intros cout K de interp wt kp w wo sph layer infl El Hcin HK Hwt.
    eapply (kpconv_runs active pactive bactive warp time eps); [exact Hd|exact W|exact El|exact Hcin|exact HK|exact Hwt|exact Hg|reflexivity|]. intros st _.
    eapply (kpconv_runs active2 pactive2 bactive2 warp2 time2 eps2); [exact Hd2|exact W2|exact El|exact Hcin|exact HK|exact Hwt|exact Hg2|reflexivity|]. intros st2 _.
    unfold agree. apply (outs D t e e2 crows cids crows2 cids2 qs HL). intros i i2 c Hi _.
    exact (kp_match D r t e e2 rows ids crows cids rows2 ids2 crows2 cids2 ps qs F F2 HU HL HF cin K de wt kp w wo _ i i2 c Hi).
  - intros cout hidden act a axis bias w w1 b1 w2 b2 bw Hn Hn2 Hs Ha Hb layer. unfold layer.
    eapply (pointconv_runs active pactive bactive warp time eps D r rows ids pin crows cids pout cin cout hidden act a axis bias w w1 b1 w2 b2 feats F bw
      (top D r rows ids crows cids bw)); [exact Hd|exact W|exact Hn|exact Hs|exact Ha|exact Hg|exact Hb| |reflexivity|].
    { intros i _ Hne. apply top_ok; auto; apply W. }
    eapply (pointconv_runs active2 pactive2 bactive2 warp2 time2 eps2 D r rows2 ids2 pin2 crows2 cids2 pout2 cin cout hidden act a axis bias w w1 b1 w2 b2 feats2 F2 bw
      (top D r rows2 ids2 crows2 cids2 bw)); [exact Hd2|exact W2|exact Hn2|exact Hs|exact Ha|exact Hg2|exact Hb| |reflexivity|].
    { intros i _ Hne. apply top_ok; auto; apply W. }
    unfold agree. apply (outs D t e e2 crows cids crows2 cids2 qs HL). intros i i2 c Hi _.
    exact (pt_match D r t e e2 rows ids crows cids rows2 ids2 crows2 cids2 ps qs F F2 HU HL HF cin hidden a axis bias w w1 b1 w2 b2 bw i i2 c Hi).
  - eapply (local_pooling_runs active pactive bactive warp time eps); [exact Hd|exact W|left; reflexivity|exact Hg|exact red_max_perm|reflexivity|].
    eapply (local_pooling_runs active2 pactive2 bactive2 warp2 time2 eps2); [exact Hd2|exact W2|left; reflexivity|exact Hg2|exact red_max_perm|reflexivity|].
    unfold agree. apply (outs D t e e2 crows cids crows2 cids2 qs HL). intros i i2 c Hi _.
    exact (pool_match D r t e e2 rows ids crows cids rows2 ids2 crows2 cids2 ps qs F F2 HU HL HF red_max i i2 c red_max_perm Hi).
  - eapply (local_pooling_runs active pactive bactive warp time eps); [exact Hd|exact W|left; reflexivity|exact Hg|exact red_mean_perm|reflexivity|].
    eapply (local_pooling_runs active2 pactive2 bactive2 warp2 time2 eps2); [exact Hd2|exact W2|left; reflexivity|exact Hg2|exact red_mean_perm|reflexivity|].
    unfold agree. apply (outs D t e e2 crows cids crows2 cids2 qs HL). intros i i2 c Hi _.
    exact (pool_match D r t e e2 rows ids crows cids rows2 ids2 crows2 cids2 ps qs F F2 HU HL HF red_mean i i2 c red_mean_perm Hi).
Qed.

(** C68, two calls with the pure TensorFlow fallback. PointConv needs two output
    points in each batch (C34). *)
Lemma C68_fallback_proof :
  forall eps eps2 D r t e e2 rows ids pin crows cids pout rows2 ids2 pin2 crows2 cids2 pout2 ps qs feats feats2 cin F F2,
    workable eps D r rows ids pin crows cids pout -> workable eps2 D r rows2 ids2 pin2 crows2 cids2 pout2 ->
    given feats pin cin F -> given feats2 pin2 cin F2 ->
    matched D t e (rows, ids) e2 (rows2, ids2) ps -> matched D t e (crows, cids) e2 (crows2, cids2) qs -> rows_match ps F F2 ->
    let search := find_neighbors_tf GPU in let kde := compute_pdf_tf GPU in
    let agree := fun cout => outputs_match cout (length cids) (length cids2) qs in
    (forall cout mlps sizes act a w b fw layer bandwidth,
       mk_mcconv cin cout D mlps sizes act w b fw = Ok layer -> 0 < cout -> activation act a -> (0 < bandwidth)%R ->
       exists o o2,
         mcconv_call GPU eps search kde layer feats pin pout r None bandwidth false false = Ok o /\
         mcconv_call GPU eps2 search kde layer feats2 pin2 pout2 r None bandwidth false false = Ok o2 /\ agree cout o o2) /\
    (forall cout K deformable interpolation wt kernel_points w wo spherical layer influence,
       mk_kpconv cin cout K D deformable interpolation
         (Some (ttab [K; D] (fun idx => match idx with [k; d] => kernel_points k d | _ => 0%R end))) spherical w wo = Ok layer ->
       0 < cin -> 0 < K -> weighting interpolation wt ->
       exists o o2 state state2,
         kpconv_call GPU eps search layer feats pin pout r None influence false false = Ok (o, state) /\
         kpconv_call GPU eps2 search layer feats2 pin2 pout2 r None influence false false = Ok (o2, state2) /\ agree cout o o2) /\
    (forall cout hidden act a axis bias w w1 b1 w2 b2 bandwidth,
       2 <= length cids -> 2 <= length cids2 -> 0 < cin -> 0 < hidden -> activation act a -> (0 < bandwidth)%R ->
       let layer := mk_pointconv cin cout D hidden act axis bias w w1 b1 w2 b2 in
       exists o o2,
         pointconv_call GPU eps search kde layer feats pin pout r None bandwidth false false = Ok o /\
         pointconv_call GPU eps2 search kde layer feats2 pin2 pout2 r None bandwidth false false = Ok o2 /\ agree cout o o2) /\
    (exists o o2,
       max_pooling GPU eps search feats pin pout (Some [r]) false false = Ok o /\
       max_pooling GPU eps2 search feats2 pin2 pout2 (Some [r]) false false = Ok o2 /\ agree cin o o2) /\
    (exists o o2,
       average_pooling GPU eps search feats pin pout (Some [r]) false false = Ok o /\
       average_pooling GPU eps2 search feats2 pin2 pout2 (Some [r]) false false = Ok o2 /\ agree cin o o2).
Proof.
  intros eps eps2 D r t e e2 rows ids pin crows cids pout rows2 ids2 pin2 crows2 cids2 pout2 ps qs feats feats2 cin F F2
    W W2 Hg Hg2 HU HL HF search kde agree. unfold search, kde.
  split; [|split; [|split; [|split]]].
  - intros cout mlps sizes act a w b fw layer bw El Hc Ha Hb.
    rewrite (C34_mcconv_partial_proof _ _ _ _ _ _ _ _ _ _ _ _ _ _ _ _ _ _ _ _ _ _ _ _ W El Hc Ha Hg Hb).
    rewrite (C34_mcconv_partial_proof _ _ _ _ _ _ _ _ _ _ _ _ _ _ _ _ _ _ _ _ _ _ _ _ W2 El Hc Ha Hg2 Hb).
    do 2 eexists. split; [reflexivity|]. split; [reflexivity|].
    unfold agree. apply (outs D t e e2 crows cids crows2 cids2 qs HL). intros i i2 c Hi _.
    apply (mc_match D r t e e2 rows ids crows cids rows2 ids2 crows2 cids2 ps qs F F2 HU HL HF); [|exact Hi].
    apply mk_mcconv_inv in El. tauto.
  - intros cout K de interp wt kp w wo sph layer infl El Hcin HK Hwt.
    destruct (C34_kpconv_partial_proof _ _ _ _ _ _ _ _ _ _ _ _ _ _ _ _ _ _ _ _ _ _ infl false false W El Hcin HK Hwt Hg) as (st & E & _).
    destruct (C34_kpconv_partial_proof _ _ _ _ _ _ _ _ _ _ _ _ _ _ _ _ _ _ _ _ _ _ infl false false W2 El Hcin HK Hwt Hg2) as (st2 & E2 & _).
    do 4 eexists. split; [exact E|]. split; [exact E2|].
    unfold agree. apply (outs D t e e2 crows cids crows2 cids2 qs HL). intros i i2 c Hi _.
    exact (kp_match D r t e e2 rows ids crows cids rows2 ids2 crows2 cids2 ps qs F F2 HU HL HF cin K de wt kp w wo _ i i2 c Hi).
  - intros cout hidden act a axis bias w w1 b1 w2 b2 bw Hn Hn2 Hcin Hh Ha Hb.
    rewrite (C34_pointconv_partial_proof _ _ _ _ _ _ _ _ _ _ cout _ _ _ axis bias w w1 b1 w2 b2 _ _ _
      (top D r rows ids crows cids bw) _ _ W Hn Hcin Hh Ha Hg Hb).
    2:{ intros i _ Hne. apply top_ok; auto; apply W. }
    rewrite (C34_pointconv_partial_proof _ _ _ _ _ _ _ _ _ _ cout _ _ _ axis bias w w1 b1 w2 b2 _ _ _
      (top D r rows2 ids2 crows2 cids2 bw) _ _ W2 Hn2 Hcin Hh Ha Hg2 Hb).
    2:{ intros i _ Hne. apply top_ok; auto; apply W. }
    do 2 eexists. split; [reflexivity|]. split; [reflexivity|].
    unfold agree. apply (outs D t e e2 crows cids crows2 cids2 qs HL). intros i i2 c Hi _.
    exact (pt_match D r t e e2 rows ids crows cids rows2 ids2 crows2 cids2 ps qs F F2 HU HL HF cin hidden a axis bias w w1 b1 w2 b2 bw i i2 c Hi).
  - unfold max_pooling. erewrite !local_pooling_table by (eauto using red_max_perm).
    do 2 eexists. split; [reflexivity|]. split; [reflexivity|].
    unfold agree. apply (outs D t e e2 crows cids crows2 cids2 qs HL). intros i i2 c Hi _.
    exact (pool_match D r t e e2 rows ids crows cids rows2 ids2 crows2 cids2 ps qs F F2 HU HL HF red_max i i2 c red_max_perm Hi).
  - unfold average_pooling. erewrite !local_pooling_table by (eauto using red_mean_perm).
    do 2 eexists. split; [reflexivity|]. split; [reflexivity|].
    unfold agree. apply (outs D t e e2 crows cids crows2 cids2 qs HL). intros i i2 c Hi _.
    exact (pool_match D r t e e2 rows ids crows cids rows2 ids2 crows2 cids2 ps qs F F2 HU HL HF red_mean i i2 c red_mean_perm Hi).
Qed.

(** C68, a call with the CUDA operations and one with the fallback. For MCConv
    the features with the CUDA operations, multiplied by a number that differs
    from 1 by at most 1e-8, are those of the fallback. *)
Lemma C68_mixed_proof :
  forall active pactive bactive warp time eps eps2 D r t e e2
         rows ids pin crows cids pout rows2 ids2 pin2 crows2 cids2 pout2 ps qs feats feats2 cin F F2,
    device_ok active pactive bactive warp ->
    cuda_workable (scan_limit active warp) eps D r rows ids pin crows cids pout ->
    workable eps2 D r rows2 ids2 pin2 crows2 cids2 pout2 ->
    given feats pin cin F -> given feats2 pin2 cin F2 ->
    matched D t e (rows, ids) e2 (rows2, ids2) ps -> matched D t e (crows, cids) e2 (crows2, cids2) qs -> rows_match ps F F2 ->
    let search := find_neighbors_tf GPU in let kde := compute_pdf_tf GPU in
    let agree := fun cout => outputs_match cout (length cids) (length cids2) qs in
    (exists factor, (1 - 1 / 100000000 <= factor <= 1)%R /\
     forall cout mlps sizes act a w b fw layer bandwidth,
       length ids <= scan_limit active warp ->
       mk_mcconv cin cout D mlps sizes act w b fw = Ok layer -> 0 < cout -> activation act a -> (0 < bandwidth)%R ->
       SpecGpuBasis.supported (last sizes 0 * mlps) cin ->
       exists o2, mcconv_call GPU eps2 search kde layer feats2 pin2 pout2 r None bandwidth false false = Ok o2 /\
       mcconv_gpu active pactive bactive warp time eps layer feats pin pout r None bandwidth false false (fun o =>
         outputs_scaled factor cout (length cids) (length cids2) qs o o2)) /\
    (forall cout K deformable interpolation wt kernel_points w wo spherical layer influence,
       mk_kpconv cin cout K D deformable interpolation
         (Some (ttab [K; D] (fun idx => match idx with [k; d] => kernel_points k d | _ => 0%R end))) spherical w wo = Ok layer ->
       0 < cin /\ (cin < 8 \/ cin mod 8 = 0) -> 0 < K <= 64 -> weighting interpolation wt ->
       exists o2 state2, kpconv_call GPU eps2 search layer feats2 pin2 pout2 r None influence false false = Ok (o2, state2) /\
       kpconv_gpu active bactive warp time eps layer feats pin pout r None influence false false (fun o _ => agree cout o o2)) /\
    (forall cout hidden act a axis bias w w1 b1 w2 b2 bandwidth,
       length ids <= scan_limit active warp -> 2 <= length cids2 ->
       SpecGpuBasis.supported hidden cin -> activation act a -> (0 < bandwidth)%R ->
       let layer := mk_pointconv cin cout D hidden act axis bias w w1 b1 w2 b2 in
       exists o2, pointconv_call GPU eps2 search kde layer feats2 pin2 pout2 r None bandwidth false false = Ok o2 /\
       pointconv_gpu active pactive bactive warp time eps layer feats pin pout r None bandwidth false false (fun o => agree cout o o2)) /\
    (exists o2, max_pooling GPU eps2 search feats2 pin2 pout2 (Some [r]) false false = Ok o2 /\
       max_pooling_gpu active warp time eps feats pin pout (Some [r]) false false (fun o => agree cin o o2)) /\
    (exists o2, average_pooling GPU eps2 search feats2 pin2 pout2 (Some [r]) false false = Ok o2 /\
       average_pooling_gpu active warp time eps feats pin pout (Some [r]) false false (fun o => agree cin o o2)).
Proof.
  intros active pactive bactive warp time eps eps2 D r t e e2
    rows ids pin crows cids pout rows2 ids2 pin2 crows2 cids2 pout2 ps qs feats feats2 cin F F2 Hd W W2 Hg Hg2 HU HL HF search kde agree.
  unfold search, kde. split; [|split; [|split; [|split]]].
  - assert (Hrt : (1 - 1 / 100000000 <= ratio ^ D <= 1)%R) by (apply ratio_pow; apply (cw_dim _ _ _ _ _ _ _ _ _ _ W)).
    exists (ratio ^ D)%R. split; [exact Hrt|].
    intros cout mlps sizes act a w b fw layer bw Hn El Hc Ha Hb Hs.
    rewrite (C34_mcconv_partial_proof _ _ _ _ _ _ _ _ _ _ _ _ _ _ _ _ _ _ _ _ _ _ _ _ W2 El Hc Ha Hg2 Hb).
    eexists. split; [reflexivity|].
    eapply (mcconv_runs active pactive bactive warp time eps); [exact Hd|exact W|exact Hn|exact El|exact Hc|exact Ha|exact Hs|exact Hg|exact Hb|reflexivity|].
    apply (outs_scaled D t e e2 crows cids crows2 cids2 qs HL). intros i i2 c Hi _.
    rewrite <- (mc_match D r t e e2 rows ids crows cids rows2 ids2 crows2 cids2 ps qs F F2 HU HL HF cin cout mlps sizes a w b fw bw i i2 c); [|apply mk_mcconv_inv in El; tauto|exact Hi].
    field. lra.
  - intros cout K de interp wt kp w wo sph layer infl El Hcin HK Hwt.
    destruct (C34_kpconv_partial_proof _ _ _ _ _ _ _ _ _ _ _ _ _ _ _ _ _ _ _ _ _ _ infl false false W2 El (proj1 Hcin) (proj1 HK) Hwt Hg2) as (st2 & E2 & _).
    do 2 eexists. split; [exact E2|].
    eapply (kpconv_runs active pactive bactive warp time eps); [exact Hd|exact W|exact El|exact Hcin|exact HK|exact Hwt|exact Hg|reflexivity|]. intros st _.
    unfold agree. apply (outs D t e e2 crows cids crows2 cids2 qs HL). intros i i2 c Hi _.
    exact (kp_match D r t e e2 rows ids crows cids rows2 ids2 crows2 cids2 ps qs F F2 HU HL HF cin K de wt kp w wo _ i i2 c Hi).
  - intros cout hidden act a axis bias w w1 b1 w2 b2 bw Hn Hn2 Hs Ha Hb.
    assert (Hcin : 0 < cin) by (destruct Hs as (_ & ? & _); lia).
    assert (Hh : 0 < hidden) by (destruct Hs as (Hk & _); destruct hidden; [cbn in Hk; intuition discriminate|lia]).
    rewrite (C34_pointconv_partial_proof _ _ _ _ _ _ _ _ _ _ cout _ _ _ axis bias w w1 b1 w2 b2 _ _ _
      (top D r rows2 ids2 crows2 cids2 bw) _ _ W2 Hn2 Hcin Hh Ha Hg2 Hb).
    2:{ intros i _ Hne. apply top_ok; auto; apply W2. }
    eexists. split; [reflexivity|].
    eapply (pointconv_runs active pactive bactive warp time eps D r rows ids pin crows cids pout cin cout hidden act a axis bias w w1 b1 w2 b2 feats F bw
      (top D r rows ids crows cids bw)); [exact Hd|exact W|exact Hn|exact Hs|exact Ha|exact Hg|exact Hb| |reflexivity|].
    { intros i _ Hne. apply top_ok; auto; apply W. }
    unfold agree. apply (outs D t e e2 crows cids crows2 cids2 qs HL). intros i i2 c Hi _.
    exact (pt_match D r t e e2 rows ids crows cids rows2 ids2 crows2 cids2 ps qs F F2 HU HL HF cin hidden a axis bias w w1 b1 w2 b2 bw i i2 c Hi).
  - unfold max_pooling. erewrite !local_pooling_table by (eauto using red_max_perm). eexists. split; [reflexivity|].
    eapply (local_pooling_runs active pactive bactive warp time eps); [exact Hd|exact W|left; reflexivity|exact Hg|exact red_max_perm|reflexivity|].
    unfold agree. apply (outs D t e e2 crows cids crows2 cids2 qs HL). intros i i2 c Hi _.
    exact (pool_match D r t e e2 rows ids crows cids rows2 ids2 crows2 cids2 ps qs F F2 HU HL HF red_max i i2 c red_max_perm Hi).
  - unfold average_pooling. erewrite !local_pooling_table by (eauto using red_mean_perm). eexists. split; [reflexivity|].
    eapply (local_pooling_runs active pactive bactive warp time eps); [exact Hd|exact W|left; reflexivity|exact Hg|exact red_mean_perm|reflexivity|].
    unfold agree. apply (outs D t e e2 crows cids crows2 cids2 qs HL). intros i i2 c Hi _.
    exact (pool_match D r t e e2 rows ids crows cids rows2 ids2 crows2 cids2 ps qs F F2 HU HL HF red_mean i i2 c red_mean_perm Hi).
Qed.

(** Example: the points 4 and 5 of the first batch are the points 2 and 0 of the
    second, moved by (1, -2); they are also the output points. *)
Definition exY_rows : list point := [[19#10;-11#10];[7#1;0#1];[3#2;-3#2]].
Definition exY_ids : list nat := [0;1;0].
Definition exY_F : list (list R) := [[11%R;12%R];[0%R;0%R];[9%R;10%R]].
Definition exY_move (d : nat) : Q := nth d [1#1; -2#1] 0%Q.
Definition exY_pairs : list (nat * nat) := [(4, 2); (5, 0)].
Lemma exY_workable : workable (1#1000) 2 1 exY_rows exY_ids (seg 2 exY_rows exY_ids 2) exY_rows exY_ids (seg 2 exY_rows exY_ids 2).
Proof.
  constructor.
  - exists 2. split; [apply seg_cloud; repeat constructor|]. split; [repeat constructor|].
    exists [7%Z;4%Z]. split; [reflexivity|]. split; [vm_compute; discriminate|]. intros d Hd. destruct d as [|[|d]]; [| |lia]; (split; [cbn; lia|]);
    intros i j Hi Hj _; cbn in Hi, Hj;
    do 3 (destruct i as [|i]; [do 3 (destruct j as [|j]; [vm_compute; discriminate|]); lia|]); lia.
  - exists (1#1000), 2. apply seg_cloud; repeat constructor.
  - lia.
  - reflexivity.
  - split; vm_compute; congruence.
  - split; [discriminate|vm_compute; reflexivity].
  - discriminate.
Qed.
Lemma exY_given : given (Feat 2 (inr exY_F)) (seg 2 exY_rows exY_ids 2) 2 exY_F.
Proof. split; [reflexivity|]. split; reflexivity. Qed.
Lemma exY_matched : matched 2 exY_move 1 (exN_rows, exN_ids) 0 (exY_rows, exY_ids) exY_pairs.
Proof.
  split; [reflexivity|]. split; [change (members (snd (exY_rows, exY_ids)) 0) with [0; 2]; apply perm_swap|].
  intros i j d [E|[E|[]]] Hd; injection E as <- <-; (destruct d as [|[|d]]; [vm_compute; reflexivity..|lia]).
Qed.
Lemma exY_features : rows_match exY_pairs exN_F exY_F.
Proof. intros i j [E|[E|[]]]; injection E as <- <-; reflexivity. Qed.
Definition exY_active : GpuNeighbors.kernel -> nat := fun _ => 3.
Lemma exY_device : device_ok exY_active 1 4 16.
Proof. constructor; [intros k; discriminate|lia|lia|lia|exists 16; reflexivity]. Qed.
Lemma exY_cuda : cuda_workable (scan_limit exY_active 16) (1#1000) 2 1 exY_rows exY_ids (seg 2 exY_rows exY_ids 2) exY_rows exY_ids (seg 2 exY_rows exY_ids 2).
Proof.
  destruct exY_workable as [(B & H1 & H0 & H2) Ho H3 H4 H5 (H6 & _) H7]. constructor; [exists B; auto|exact Ho|lia|left; lia|exact H4|exact H6|].
  split; [exact H7|]. cbn. lia.
Qed.
(** On these two devices MCConv with the CUDA operations runs on both batches and
    gives paired points the same features. *)
Example C68_cuda_ex_proof :
  (device_ok ex55_active 3 5 32 /\ device_ok exY_active 1 4 16) /\
  cuda_workable (scan_limit ex55_active 32) (1#1000) 2 1 exN_rows exN_ids (seg 2 exN_rows exN_ids 2) exN_rows exN_ids (seg 2 exN_rows exN_ids 2) /\
  cuda_workable (scan_limit exY_active 16) (1#1000) 2 1 exY_rows exY_ids (seg 2 exY_rows exY_ids 2) exY_rows exY_ids (seg 2 exY_rows exY_ids 2) /\
  given (Feat 2 (inr exN_F)) (seg 2 exN_rows exN_ids 2) 2 exN_F /\ given (Feat 2 (inr exY_F)) (seg 2 exY_rows exY_ids 2) 2 exY_F /\
  matched 2 exY_move 1 (exN_rows, exN_ids) 0 (exY_rows, exY_ids) exY_pairs /\ rows_match exY_pairs exN_F exY_F /\
  exists layer,
    mk_mcconv 2 4 2 2 [3;8] "ReLU" (fun k idx => INR (k + hd 0 idx)) (fun _ _ => 0%R) (fun idx => INR (hd 0 idx)) = Ok layer /\
    forall time time2,
      mcconv_gpu ex55_active 3 5 32 time (1#1000) layer (Feat 2 (inr exN_F)) (seg 2 exN_rows exN_ids 2) (seg 2 exN_rows exN_ids 2) 1 None (1/5) false false (fun o =>
      mcconv_gpu exY_active 1 4 16 time2 (1#1000) layer (Feat 2 (inr exY_F)) (seg 2 exY_rows exY_ids 2) (seg 2 exY_rows exY_ids 2) 1 None (1/5) false false (fun o2 =>
      exists T T2, o = Feat 4 (inr T) /\ o2 = Feat 4 (inr T2) /\ length T = 6 /\ length T2 = 3 /\
        nth 4 T [] = nth 2 T2 [] /\ nth 5 T [] = nth 0 T2 [])).
Proof.
  split; [split; [exact ex55_device|exact exY_device]|]. split; [exact ex55_workable|]. split; [exact exY_cuda|]. split; [exact exN_given|]. split; [exact exY_given|].
  split; [exact exY_matched|]. split; [exact exY_features|].
  assert (El : exists layer, mk_mcconv 2 4 2 2 [3;8] "ReLU" (fun k idx => INR (k + hd 0 idx)) (fun _ _ => 0%R) (fun idx => INR (hd 0 idx)) = Ok layer) by (eexists; reflexivity).
  destruct El as (layer & El). exists layer. split; [exact El|]. intros time time2.
  assert (Ha : activation "ReLU" (fun x => Rmax 0 x)) by (left; split; [apply means_lower; [repeat constructor|now left]|reflexivity]).
  assert (Hs : SpecGpuBasis.supported (last [3;8] 0 * 2) 2) by (split; [right; now left|]; split; [lia|left; lia]).
  assert (Hb : (0 < 1 / 5)%R) by lra.
  assert (Hc : 0 < 4) by lia.
  assert (L1 : length exN_ids <= scan_limit ex55_active 32) by (cbn; lia).
  assert (L2 : length exY_ids <= scan_limit exY_active 16) by (cbn; lia).
  eapply (mcconv_runs ex55_active 3 5 32 time (1#1000)); [exact ex55_device|exact ex55_workable|exact L1|exact El|exact Hc|exact Ha|exact Hs|exact exN_given|exact Hb|reflexivity|].
  eapply (mcconv_runs exY_active 1 4 16 time2 (1#1000)); [exact exY_device|exact exY_cuda|exact L2|exact El|exact Hc|exact Ha|exact Hs|exact exY_given|exact Hb|reflexivity|].
  assert (O : forall f f2, (forall i i2 c, In (i, i2) exY_pairs -> c < 4 -> f i c = f2 i2 c) ->
    exists T T2, Feat 4 (inr (table 6 4 f)) = Feat 4 (inr T) /\ Feat 4 (inr (table 3 4 f2)) = Feat 4 (inr T2) /\ length T = 6 /\ length T2 = 3 /\
        nth 4 T [] = nth 2 T2 [] /\ nth 5 T [] = nth 0 T2 []).
  { intros f f2 H. destruct (outs 2 exY_move 1 0 exN_rows exN_ids exY_rows exY_ids exY_pairs exY_matched 4 f f2 H) as (T & T2 & E & E2 & (M & _) & (M2 & _) & Hm).
    exists T, T2. split; [exact E|]. split; [exact E2|]. split; [exact M|]. split; [exact M2|].
    split; apply Hm; [now left|right; now left]. }
  apply O. intros i i2 c Hi _. f_equal.
  apply (mc_match 2 1 exY_move 1 0 exN_rows exN_ids exN_rows exN_ids exY_rows exY_ids exY_rows exY_ids exY_pairs exY_pairs exN_F exY_F exY_matched exY_matched exY_features); [discriminate|exact Hi].
Qed.
Example C68_fallback_ex_proof :
  workable (1#1000) 2 1 exN_rows exN_ids (seg 2 exN_rows exN_ids 2) exN_rows exN_ids (seg 2 exN_rows exN_ids 2) /\
  workable (1#1000) 2 1 exY_rows exY_ids (seg 2 exY_rows exY_ids 2) exY_rows exY_ids (seg 2 exY_rows exY_ids 2) /\
  given (Feat 2 (inr exN_F)) (seg 2 exN_rows exN_ids 2) 2 exN_F /\ given (Feat 2 (inr exY_F)) (seg 2 exY_rows exY_ids 2) 2 exY_F /\
  matched 2 exY_move 1 (exN_rows, exN_ids) 0 (exY_rows, exY_ids) exY_pairs /\ rows_match exY_pairs exN_F exY_F /\
  near_points 2 1 exN_rows exN_ids exN_rows exN_ids 4 = [4;5] /\ near_points 2 1 exY_rows exY_ids exY_rows exY_ids 2 = [0;2].
Proof.
  split; [exact exN_self|]. split; [exact exY_workable|]. split; [exact exN_given|]. split; [exact exY_given|].
  split; [exact exY_matched|]. split; [exact exY_features|]. split; vm_compute; reflexivity.
Qed.
Example C68_mixed_ex_proof :
  device_ok ex55_active 3 5 32 /\
  cuda_workable (scan_limit ex55_active 32) (1#1000) 2 1 exN_rows exN_ids (seg 2 exN_rows exN_ids 2) exN_rows exN_ids (seg 2 exN_rows exN_ids 2) /\
  workable (1#1000) 2 1 exY_rows exY_ids (seg 2 exY_rows exY_ids 2) exY_rows exY_ids (seg 2 exY_rows exY_ids 2) /\
  given (Feat 2 (inr exN_F)) (seg 2 exN_rows exN_ids 2) 2 exN_F /\ given (Feat 2 (inr exY_F)) (seg 2 exY_rows exY_ids 2) 2 exY_F /\
  matched 2 exY_move 1 (exN_rows, exN_ids) 0 (exY_rows, exY_ids) exY_pairs /\ rows_match exY_pairs exN_F exY_F /\
  forall time, exists T2,
    max_pooling GPU (1#1000) (find_neighbors_tf GPU) (Feat 2 (inr exY_F)) (seg 2 exY_rows exY_ids 2) (seg 2 exY_rows exY_ids 2) (Some [1#1]) false false = Ok (Feat 2 (inr T2)) /\
    max_pooling_gpu ex55_active 32 time (1#1000) (Feat 2 (inr exN_F)) (seg 2 exN_rows exN_ids 2) (seg 2 exN_rows exN_ids 2) (Some [1#1]) false false (fun o =>
      exists T, o = Feat 2 (inr T) /\ nth 4 T [] = nth 2 T2 [] /\ nth 5 T [] = nth 0 T2 []).
Proof.
  split; [exact ex55_device|]. split; [exact ex55_workable|]. split; [exact exY_workable|]. split; [exact exN_given|]. split; [exact exY_given|].
  split; [exact exY_matched|]. split; [exact exY_features|]. intros time.
  unfold max_pooling. erewrite !local_pooling_table by (eauto using red_max_perm, exY_workable, exY_given). eexists. split; [reflexivity|].
  eapply (local_pooling_runs ex55_active 3 5 32 time (1#1000)); [exact ex55_device|exact ex55_workable|left; reflexivity|exact exN_given|exact red_max_perm|reflexivity|].
  pose proof (mt_table 2 exY_move 1 0 (exN_rows, exN_ids) (exY_rows, exY_ids) exY_pairs exY_matched 2 _ _ (fun i i2 c Hi _ =>
    pool_match 2 1 exY_move 1 0 exN_rows exN_ids exN_rows exN_ids exY_rows exY_ids exY_rows exY_ids exY_pairs exY_pairs exN_F exY_F exY_matched exY_matched exY_features
      red_max i i2 c red_max_perm Hi)) as Hm.
  eexists. split; [reflexivity|]. split; apply Hm; [now left|right; now left].
Qed.
