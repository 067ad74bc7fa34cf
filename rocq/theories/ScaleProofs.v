(** Proofs about scaled, rotated and reflected clouds (C69). The statements are
    copied into PropertiesScale.v. *)
From Coq Require Import String List Arith ZArith NArith QArith Reals Qreals Lia Lra Bool Permutation.
From Verif Require Import GpuBasis GpuPdf Cuda GpuGrid Tensor TensorFacts Spec SpecText TextFacts PointCloud SpecCloud PointCloudFacts QFacts Grid SpecGrid GridFacts
  Neighbors SpecNeighbors NeighborFacts NeighborProofs Neighborhood NeighborhoodFacts NeighborhoodProofs
  Sampling SpecSampling SamplingFacts SamplingProofs Hierarchy SpecHierarchy HierarchyFacts Pdf SpecPdf PdfFacts PdfProofs
  RTensor RTensorFacts Layers SpecLayers LayerFacts LayerLink LayerProofs ConvProofs MoveProofs BlockFacts
  SpecMatch MatchFacts SpecLayerMatch GpuPdfProofs CudaLayers SpecCudaLayers CudaLayerProofs LayerMatchProofs SpecScale ScaleFacts.
Import ListNotations.
Local Open Scope nat_scope.

Section Outs.
  Context (D : nat) (s : Q) (e e2 : nat) (rows : list point) (ids : list nat) (crows : list point) (cids : list nat)
    (rows2 : list point) (ids2 : list nat) (crows2 : list point) (cids2 : list nat) (ps qs : list (nat * nat)) (F F2 : list (list R)).
  Context (Hs : (0 < s)%Q) (HS : similar D s e (rows, ids) (crows, cids) e2 (rows2, ids2) (crows2, cids2) ps qs) (HF : rows_match ps F F2).

  Lemma sim_outs C f f2 : (forall i i2 c, In (i, i2) qs -> c < C -> f i c = f2 i2 c) ->
    outputs_match C (length cids) (length cids2) qs (Feat C (inr (table (length cids) C f))) (Feat C (inr (table (length cids2) C f2))).
  Proof using HS.
    intros H. do 2 eexists. split; [reflexivity|]. split; [reflexivity|]. split; [apply matrix_table|]. split; [apply matrix_table|].
    exact (sm_table D s e e2 (rows, ids) (crows, cids) (rows2, ids2) (crows2, cids2) ps qs HS C f f2 H).
  Qed.
  Lemma sim_pool r (red : list R -> R) i i2 c : (forall l m, Permutation l m -> red l = red m) -> In (i, i2) qs ->
    red (map (fun j => fval F j c) (near_points D r rows ids crows cids i))
    = red (map (fun j => fval F2 j c) (near_points D (s * r) rows2 ids2 crows2 cids2 i2)).
  Proof using Hs HS HF.
    intros Hr Hi. apply Hr. apply (sm_values D s e e2 (rows, ids) (crows, cids) (rows2, ids2) (crows2, cids2) ps qs Hs HS); [exact Hi|].
    intros j j2 Hj. unfold fval. now rewrite (HF j j2 Hj).
  Qed.
End Outs.

Section Conv.
  Context (D : nat) (s r : Q) (t : nat -> Q) (e e2 : nat) (rows : list point) (ids : list nat) (crows : list point) (cids : list nat)
    (rows2 : list point) (ids2 : list nat) (crows2 : list point) (cids2 : list nat) (ps qs : list (nat * nat)) (F F2 : list (list R)).
  Context (HD : 2 <= D) (Hs : (0 < s)%Q) (Hr : (0 < r)%Q) (HU : scaled D s t e (rows, ids) e2 (rows2, ids2) ps) (HL : scaled D s t e (crows, cids) e2 (crows2, cids2) qs)
    (HF : rows_match ps F F2).

  Lemma conv_mc cin cout mlps sizes a w b fw bw i i2 o : sizes <> [] -> (0 < bw)%R -> In (i, i2) qs ->
    mc_formula D r rows ids crows cids F cin cout mlps sizes a w b fw r (fun p _ => density D (repeat bw D) (repeat r D) rows ids p) i o
    = mc_formula D (s * r) rows2 ids2 crows2 cids2 F2 cin cout mlps sizes a w b fw (s * r) (fun p _ => density D (repeat bw D) (repeat (s * r)%Q D) rows2 ids2 p) i2 o.
  Proof using HD Hs Hr HU HL HF.
    intros Hz Hb Hi. apply (sc_mc D s r t e e2 (rows, ids) (crows, cids) (rows2, ids2) (crows2, cids2) ps qs F F2 Hs Hr HU HL HF); [exact Hz|exact Hi|].
    intros j j2 Hj.
    apply (density_scale D bw s r e e2 (rows, ids) (rows2, ids2) ps j j2 Hs Hr Hb ltac:(lia) (scaled_similar D s t _ _ _ _ _ _ _ _ HU HU) Hj).
  Qed.
  Lemma conv_kp cin K deformable (wt : R -> R -> R) (kernel_points : nat -> nat -> R) w wo (sigma : R) i i2 o : In (i, i2) qs ->
    let start := fun (_ k d : nat) => (kernel_points k d * (3 / 4))%R in
    let conv := kp_formula D r rows ids crows cids F cin K in
    let conv2 := kp_formula D (s * r) rows2 ids2 crows2 cids2 F2 cin K in
    let positions := fun i k d => if deformable : bool then (start i k d + conv wo (fun v => wt v sigma) start r i (k * D + d)%nat)%R else start i k d in
    let positions2 := fun i k d => if deformable : bool then (start i k d + conv2 wo (fun v => wt v sigma) start (s * r)%Q i (k * D + d)%nat)%R else start i k d in
    conv w (fun v => wt v sigma) positions r i o = conv2 w (fun v => wt v sigma) positions2 (s * r)%Q i2 o.
  Proof using Hs Hr HU HL HF.
    intros Hi start conv conv2 positions positions2.
    apply (sc_kp D s r t e e2 (rows, ids) (crows, cids) (rows2, ids2) (crows2, cids2) ps qs F F2 Hs Hr HU HL HF); [exact Hi|].
    intros k d Hk Hd. unfold positions, positions2. destruct deformable; [|reflexivity]. f_equal.
    apply (sc_kp D s r t e e2 (rows, ids) (crows, cids) (rows2, ids2) (crows2, cids2) ps qs F F2 Hs Hr HU HL HF); [exact Hi|reflexivity].
  Qed.
End Conv.
Lemma sigma_scale (s r : Q) (influence : option R) : (0 < s)%Q -> (0 < r)%Q ->
  match option_map (Rmult (Q2R s)) influence with None => 1%R | Some x => (x / Q2R (s * r))%R end
  = match influence with None => 1%R | Some x => (x / Q2R r)%R end.
Proof.
  intros Hs Hr. destruct influence as [x|]; [|reflexivity]. cbn [option_map]. rewrite Q2R_mult.
  apply Qlt_Rlt in Hs, Hr. replace (Q2R 0) with 0%R in Hs, Hr by (unfold Q2R; cbn; lra). field. split; lra.
Qed.

(** C69. A cloud (element [e] of a batch) multiplied by [s], with all radii and
    the influence distance multiplied by [s], reordered and translated: MCConv and
    KPConv give corresponding points the same features. With the fallback. *)
Lemma C69_scaled_proof :
  forall eps eps2 D s r t e e2 rows ids pin crows cids pout rows2 ids2 pin2 crows2 cids2 pout2 ps qs feats feats2 cin F F2,
    (0 < s)%Q -> workable eps D r rows ids pin crows cids pout -> workable eps2 D (s * r) rows2 ids2 pin2 crows2 cids2 pout2 ->
    given feats pin cin F -> given feats2 pin2 cin F2 ->
    scaled D s t e (rows, ids) e2 (rows2, ids2) ps -> scaled D s t e (crows, cids) e2 (crows2, cids2) qs -> rows_match ps F F2 ->
    let search := find_neighbors_tf GPU in let kde := compute_pdf_tf GPU in
    let agree := fun cout => outputs_match cout (length cids) (length cids2) qs in
    (forall cout mlps sizes act a w b fw layer bandwidth,
       mk_mcconv cin cout D mlps sizes act w b fw = Ok layer -> 0 < cout -> activation act a -> (0 < bandwidth)%R ->
       exists o o2,
         mcconv_call GPU eps search kde layer feats pin pout r None bandwidth false false = Ok o /\
         mcconv_call GPU eps2 search kde layer feats2 pin2 pout2 (s * r) None bandwidth false false = Ok o2 /\ agree cout o o2) /\
    (forall cout K deformable interpolation wt kernel_points w wo spherical layer influence,
       mk_kpconv cin cout K D deformable interpolation
         (Some (ttab [K; D] (fun idx => match idx with [k; d] => kernel_points k d | _ => 0%R end))) spherical w wo = Ok layer ->
       0 < cin -> 0 < K -> weighting interpolation wt ->
       exists o o2 state state2,
         kpconv_call GPU eps search layer feats pin pout r None influence false false = Ok (o, state) /\
         kpconv_call GPU eps2 search layer feats2 pin2 pout2 (s * r) None (option_map (Rmult (Q2R s)) influence) false false = Ok (o2, state2) /\
         agree cout o o2).
Proof.
  intros eps eps2 D s r t e e2 rows ids pin crows cids pout rows2 ids2 pin2 crows2 cids2 pout2 ps qs feats feats2 cin F F2
    Hs W W2 Hg Hg2 HU HL HF search kde agree. unfold search, kde.
  assert (Hr : (0 < r)%Q) by apply W. assert (HD : 2 <= D) by apply W.
  pose proof (scaled_similar D s t _ _ _ _ _ _ _ _ HU HL) as HS.
  split.
  - intros cout mlps sizes act a w b fw layer bw El Hc Ha Hb.
    rewrite (C34_mcconv_partial_proof _ _ _ _ _ _ _ _ _ _ _ _ _ _ _ _ _ _ _ _ _ _ _ _ W El Hc Ha Hg Hb).
    rewrite (C34_mcconv_partial_proof _ _ _ _ _ _ _ _ _ _ _ _ _ _ _ _ _ _ _ _ _ _ _ _ W2 El Hc Ha Hg2 Hb).
    do 2 eexists. split; [reflexivity|]. split; [reflexivity|].
    unfold agree. apply (sim_outs D s e e2 rows ids crows cids rows2 ids2 crows2 cids2 ps qs HS). intros i i2 c Hi _.
    apply (conv_mc D s r t e e2 rows ids crows cids rows2 ids2 crows2 cids2 ps qs F F2 HD Hs Hr HU HL HF); [|exact Hb|exact Hi].
    apply mk_mcconv_inv in El. tauto.
  - intros cout K de interp wt kp w wo sph layer infl El Hcin HK Hwt.
    destruct (C34_kpconv_partial_proof _ _ _ _ _ _ _ _ _ _ _ _ _ _ _ _ _ _ _ _ _ _ infl false false W El Hcin HK Hwt Hg) as (st & E & _).
    destruct (C34_kpconv_partial_proof _ _ _ _ _ _ _ _ _ _ _ _ _ _ _ _ _ _ _ _ _ _ (option_map (Rmult (Q2R s)) infl) false false W2 El Hcin HK Hwt Hg2) as (st2 & E2 & _).
    do 4 eexists. split; [exact E|]. split; [exact E2|].
    unfold agree. apply (sim_outs D s e e2 rows ids crows cids rows2 ids2 crows2 cids2 ps qs HS). intros i i2 c Hi _.
    cbv zeta. rewrite (sigma_scale s r infl Hs Hr).
    exact (conv_kp D s r t e e2 rows ids crows cids rows2 ids2 crows2 cids2 ps qs F F2 Hs Hr HU HL HF cin K de wt kp w wo _ i i2 c Hi).
Qed.

(** C69, the same with the CUDA operations, for all devices and interleavings. *)
Lemma C69_scaled_cuda_proof :
  forall active pactive bactive warp time active2 pactive2 bactive2 warp2 time2 eps eps2 D s r t e e2
         rows ids pin crows cids pout rows2 ids2 pin2 crows2 cids2 pout2 ps qs feats feats2 cin F F2,
    device_ok active pactive bactive warp -> device_ok active2 pactive2 bactive2 warp2 ->
    (0 < s)%Q -> cuda_workable (scan_limit active warp) eps D r rows ids pin crows cids pout ->
    cuda_workable (scan_limit active2 warp2) eps2 D (s * r) rows2 ids2 pin2 crows2 cids2 pout2 ->
    given feats pin cin F -> given feats2 pin2 cin F2 ->
    scaled D s t e (rows, ids) e2 (rows2, ids2) ps -> scaled D s t e (crows, cids) e2 (crows2, cids2) qs -> rows_match ps F F2 ->
    let agree := fun cout => outputs_match cout (length cids) (length cids2) qs in
    (forall cout mlps sizes act a w b fw layer bandwidth,
       length ids <= scan_limit active warp -> length ids2 <= scan_limit active2 warp2 ->
       mk_mcconv cin cout D mlps sizes act w b fw = Ok layer -> 0 < cout -> activation act a -> (0 < bandwidth)%R ->
       SpecGpuBasis.supported (last sizes 0 * mlps) cin ->
       mcconv_gpu active pactive bactive warp time eps layer feats pin pout r None bandwidth false false (fun o =>
         mcconv_gpu active2 pactive2 bactive2 warp2 time2 eps2 layer feats2 pin2 pout2 (s * r) None bandwidth false false (fun o2 => agree cout o o2))) /\
    (forall cout K deformable interpolation wt kernel_points w wo spherical layer influence,
       mk_kpconv cin cout K D deformable interpolation
         (Some (ttab [K; D] (fun idx => match idx with [k; d] => kernel_points k d | _ => 0%R end))) spherical w wo = Ok layer ->
       0 < cin /\ (cin < 8 \/ cin mod 8 = 0) -> 0 < K <= 64 -> weighting interpolation wt ->
       kpconv_gpu active bactive warp time eps layer feats pin pout r None influence false false (fun o _ =>
         kpconv_gpu active2 bactive2 warp2 time2 eps2 layer feats2 pin2 pout2 (s * r) None (option_map (Rmult (Q2R s)) influence) false false (fun o2 _ =>
           agree cout o o2))).
Proof.
  intros active pactive bactive warp time active2 pactive2 bactive2 warp2 time2 eps eps2 D s r t e e2
    rows ids pin crows cids pout rows2 ids2 pin2 crows2 cids2 pout2 ps qs feats feats2 cin F F2 Hd Hd2 Hs W W2 Hg Hg2 HU HL HF agree.
  assert (Hr : (0 < r)%Q) by apply W. assert (HD : 2 <= D) by apply W.
  pose proof (scaled_similar D s t _ _ _ _ _ _ _ _ HU HL) as HS.
  split.
  - intros cout mlps sizes act a w b fw layer bw Hn Hn2 El Hc Ha Hb Hsup.
    eapply (mcconv_runs active pactive bactive warp time eps); [exact Hd|exact W|exact Hn|exact El|exact Hc|exact Ha|exact Hsup|exact Hg|exact Hb|reflexivity|].
    eapply (mcconv_runs active2 pactive2 bactive2 warp2 time2 eps2); [exact Hd2|exact W2|exact Hn2|exact El|exact Hc|exact Ha|exact Hsup|exact Hg2|exact Hb|reflexivity|].
    unfold agree. apply (sim_outs D s e e2 rows ids crows cids rows2 ids2 crows2 cids2 ps qs HS). intros i i2 c Hi _. f_equal.
    apply (conv_mc D s r t e e2 rows ids crows cids rows2 ids2 crows2 cids2 ps qs F F2 HD Hs Hr HU HL HF); [|exact Hb|exact Hi].
    apply mk_mcconv_inv in El. tauto.
  - intros cout K de interp wt kp w wo sph layer infl El Hcin HK Hwt.
    eapply (kpconv_runs active pactive bactive warp time eps); [exact Hd|exact W|exact El|exact Hcin|exact HK|exact Hwt|exact Hg|reflexivity|]. intros st _.
    eapply (kpconv_runs active2 pactive2 bactive2 warp2 time2 eps2); [exact Hd2|exact W2|exact El|exact Hcin|exact HK|exact Hwt|exact Hg2|reflexivity|]. intros st2 _.
    unfold agree. apply (sim_outs D s e e2 rows ids crows cids rows2 ids2 crows2 cids2 ps qs HS). intros i i2 c Hi _.
    cbv zeta. rewrite (sigma_scale s r infl Hs Hr).
    exact (conv_kp D s r t e e2 rows ids crows cids rows2 ids2 crows2 cids2 ps qs F F2 Hs Hr HU HL HF cin K de wt kp w wo _ i i2 c Hi).
Qed.

(** C69, pooling depends on the distances relative to the radius only: it gives
    corresponding points of a rotated, reflected, translated and scaled cloud the
    same features. *)
Lemma C69_pooling_proof :
  forall eps eps2 D s r e e2 rows ids pin crows cids pout rows2 ids2 pin2 crows2 cids2 pout2 ps qs feats feats2 cin F F2,
    (0 < s)%Q -> given feats pin cin F -> given feats2 pin2 cin F2 ->
    similar D s e (rows, ids) (crows, cids) e2 (rows2, ids2) (crows2, cids2) ps qs -> rows_match ps F F2 ->
    let search := find_neighbors_tf GPU in
    let agree := outputs_match cin (length cids) (length cids2) qs in
    (workable eps D r rows ids pin crows cids pout -> workable eps2 D (s * r) rows2 ids2 pin2 crows2 cids2 pout2 ->
     (exists o o2,
        max_pooling GPU eps search feats pin pout (Some [r]) false false = Ok o /\
        max_pooling GPU eps2 search feats2 pin2 pout2 (Some [(s * r)%Q]) false false = Ok o2 /\ agree o o2) /\
     (exists o o2,
        average_pooling GPU eps search feats pin pout (Some [r]) false false = Ok o /\
        average_pooling GPU eps2 search feats2 pin2 pout2 (Some [(s * r)%Q]) false false = Ok o2 /\ agree o o2)) /\
    (forall active pactive bactive warp time active2 pactive2 bactive2 warp2 time2,
     device_ok active pactive bactive warp -> device_ok active2 pactive2 bactive2 warp2 ->
     cuda_workable (scan_limit active warp) eps D r rows ids pin crows cids pout ->
     cuda_workable (scan_limit active2 warp2) eps2 D (s * r) rows2 ids2 pin2 crows2 cids2 pout2 ->
     max_pooling_gpu active warp time eps feats pin pout (Some [r]) false false (fun o =>
       max_pooling_gpu active2 warp2 time2 eps2 feats2 pin2 pout2 (Some [(s * r)%Q]) false false (fun o2 => agree o o2)) /\
     average_pooling_gpu active warp time eps feats pin pout (Some [r]) false false (fun o =>
       average_pooling_gpu active2 warp2 time2 eps2 feats2 pin2 pout2 (Some [(s * r)%Q]) false false (fun o2 => agree o o2))).
Proof.
  intros eps eps2 D s r e e2 rows ids pin crows cids pout rows2 ids2 pin2 crows2 cids2 pout2 ps qs feats feats2 cin F F2 Hs Hg Hg2 HS HF search agree.
  unfold search, agree, max_pooling, average_pooling.
  assert (O : forall red, (forall l m, Permutation l m -> red l = red m) ->
    outputs_match cin (length cids) (length cids2) qs
      (Feat cin (inr (table (length cids) cin (fun i c => red (map (fun j => fval F j c) (near_points D r rows ids crows cids i))))))
      (Feat cin (inr (table (length cids2) cin (fun i c => red (map (fun j => fval F2 j c) (near_points D (s * r) rows2 ids2 crows2 cids2 i))))))).
  { intros red Hred. apply (sim_outs D s e e2 rows ids crows cids rows2 ids2 crows2 cids2 ps qs HS). intros i i2 c Hi _.
    exact (sim_pool D s e e2 rows ids crows cids rows2 ids2 crows2 cids2 ps qs F F2 Hs HS HF r red i i2 c Hred Hi). }
  split.
  - intros W W2. split.
    + rewrite (local_pooling_table _ _ _ _ _ _ _ _ _ _ _ _ _ _ _ _ W (or_introl eq_refl) Hg red_max_perm),
        (local_pooling_table _ _ _ _ _ _ _ _ _ _ _ _ _ _ _ _ W2 (or_introl eq_refl) Hg2 red_max_perm).
      do 2 eexists. split; [reflexivity|]. split; [reflexivity|]. apply O, red_max_perm.
    + rewrite (local_pooling_table _ _ _ _ _ _ _ _ _ _ _ _ _ _ _ _ W (or_introl eq_refl) Hg red_mean_perm),
        (local_pooling_table _ _ _ _ _ _ _ _ _ _ _ _ _ _ _ _ W2 (or_introl eq_refl) Hg2 red_mean_perm).
      do 2 eexists. split; [reflexivity|]. split; [reflexivity|]. apply O, red_mean_perm.
  - intros active pactive bactive warp time active2 pactive2 bactive2 warp2 time2 Hd Hd2 W W2. split.
    + eapply (local_pooling_runs active pactive bactive warp time eps); [exact Hd|exact W|left; reflexivity|exact Hg|exact red_max_perm|reflexivity|].
      eapply (local_pooling_runs active2 pactive2 bactive2 warp2 time2 eps2); [exact Hd2|exact W2|left; reflexivity|exact Hg2|exact red_max_perm|reflexivity|].
      apply O, red_max_perm.
    + eapply (local_pooling_runs active pactive bactive warp time eps); [exact Hd|exact W|left; reflexivity|exact Hg|exact red_mean_perm|reflexivity|].
      eapply (local_pooling_runs active2 pactive2 bactive2 warp2 time2 eps2); [exact Hd2|exact W2|left; reflexivity|exact Hg2|exact red_mean_perm|reflexivity|].
      apply O, red_mean_perm.
Qed.

(** C69, densities: with one bandwidth for all axes (relative to the radius) the
    kernel density estimates of corresponding points are equal. *)
Lemma C69_density_proof :
  forall dev eps eps2 D s r e e2 rows ids B cs g n rows2 ids2 B2 cs2 g2 n2 ps max_neighbors bandwidth mode v v2,
    (0 < s)%Q -> (0 < r)%Q -> (0 < bandwidth)%R ->
    usable eps D rows ids B cs g -> usable eps2 D rows2 ids2 B2 cs2 g2 -> ids <> [] -> ids2 <> [] ->
    radii_match D (repeat r D) cs -> radii_match D (repeat (s * r)%Q D) cs2 ->
    snd (mk_nbh (find_neighbors_tf GPU) g (repeat r D) None max_neighbors) = Ok n ->
    snd (mk_nbh (find_neighbors_tf GPU) g2 (repeat (s * r)%Q D) None max_neighbors) = Ok n2 ->
    similar D s e (rows, ids) (rows, ids) e2 (rows2, ids2) (rows2, ids2) ps ps ->
    compute_pdf_tf dev n (repeat bandwidth D) mode = Ok v -> compute_pdf_tf dev n2 (repeat bandwidth D) mode = Ok v2 ->
    forall k k2, k < length ids -> k2 < length ids2 ->
      In (nth k (gsidx g) 0, nth k2 (gsidx g2) 0) ps -> nth k v 0%R = nth k2 v2 0%R.
Proof.
  intros dev eps eps2 D s r e e2 rows ids B cs g n rows2 ids2 B2 cs2 g2 n2 ps mx b mode v v2 Hs Hr Hb Hu Hu2 Hne Hne2 Hm Hm2 E E2 HS Ev Ev2 k k2 Hk Hk2 Hin.
  assert (HD : 2 <= D) by apply (us_dim _ _ _ _ _ _ _ Hu).
  assert (Hr2 : (0 < s * r)%Q) by (setoid_replace 0%Q with (s * 0)%Q by ring; now apply Qmult_lt_l).
  assert (V : forall x : Q, (0 < x)%Q -> valid_sizes D (repeat x D)).
  { intros x Hx. split; rewrite ?all_dims_repeat, ?repeat_length; auto; try lia.
    apply Forall_forall. intros y Hy. apply repeat_spec in Hy. now subst. }
  assert (Hbw : Forall (fun x => (0 < x)%R) (repeat b D)) by (apply Forall_forall; intros y Hy; apply repeat_spec in Hy; now subst).
  destruct (C27_density_partial_proof dev eps D rows ids B cs g (repeat r D) mx n (repeat b D) mode Hu Hm (V r Hr) Hne E (repeat_length _ _) Hbw) as (Ed & P & _).
  destruct (C27_density_partial_proof dev eps2 D rows2 ids2 B2 cs2 g2 (repeat (s * r)%Q D) mx n2 (repeat b D) mode Hu2 Hm2 (V _ Hr2) Hne2 E2 (repeat_length _ _) Hbw) as (Ed2 & P2 & _).
  rewrite Ed in Ev. rewrite Ed2 in Ev2. injection Ev as <-. injection Ev2 as <-.
  rewrite !all_dims_repeat.
  apply Permutation_length in P, P2. rewrite seq_length in P, P2.
  set (f := density D (repeat b D) (repeat r D) rows ids). set (f2 := density D (repeat b D) (repeat (s * r)%Q D) rows2 ids2).
  rewrite (nth_indep (map f (gsidx g)) 0%R (f 0)), (nth_indep (map f2 (gsidx g2)) 0%R (f2 0)) by (rewrite map_length; lia).
  rewrite !map_nth. unfold f, f2.
  exact (density_scale D b s r e e2 (rows, ids) (rows2, ids2) ps _ _ Hs Hr Hb ltac:(lia) HS Hin).
Qed.

(** C69 is false for PointConv, which does not divide the coordinates by the
    radius: two points at distance 1/2 with radius 1, and at distance 1 with
    radius 2. *)
Definition exS_rows : list point := [[0#1;0#1];[1#2;0#1]].
Definition exS_double : list point := [[0#1;0#1];[1#1;0#1]].
Definition exS_ids : list nat := [0;0].
Definition exS_F : list (list R) := [[1%R];[1%R]].
Definition exS_axis (idx : list nat) : R := match idx with 0 :: _ => 1%R | _ => 0%R end.
Definition exS_layer : pointconv :=
  mk_pointconv 1 1 2 1 "relu" exS_axis (fun _ => 0%R) (fun _ => 1%R) (fun _ => 0%R) (fun _ => 0%R) (fun _ => 0%R) (fun _ => 1%R).
Lemma exS_workable1 : workable (1#1000) 2 1 exS_rows exS_ids (seg 2 exS_rows exS_ids 1) exS_rows exS_ids (seg 2 exS_rows exS_ids 1).
Proof.
  constructor.
  - exists 1. split; [apply seg_cloud; repeat constructor|]. split; [repeat constructor|].
    exists [4%Z;4%Z]. split; [reflexivity|]. split; [vm_compute; discriminate|]. intros d Hd. destruct d as [|[|d]]; [| |lia]; (split; [cbn; lia|]);
    intros i j Hi Hj _; cbn in Hi, Hj;
    do 2 (destruct i as [|i]; [do 2 (destruct j as [|j]; [vm_compute; discriminate|]); lia|]); lia.
  - exists (1#1000), 1. apply seg_cloud; repeat constructor.
  - lia.
  - reflexivity.
  - split; vm_compute; congruence.
  - split; [discriminate|vm_compute; reflexivity].
  - discriminate.
Qed.
Lemma exS_workable2 : workable (1#1000) 2 ((2#1) * 1) exS_double exS_ids (seg 2 exS_double exS_ids 1) exS_double exS_ids (seg 2 exS_double exS_ids 1).
Proof.
  constructor.
  - exists 1. split; [apply seg_cloud; repeat constructor|]. split; [repeat constructor|].
    exists [4%Z;4%Z]. split; [reflexivity|]. split; [vm_compute; discriminate|]. intros d Hd. destruct d as [|[|d]]; [| |lia]; (split; [cbn; lia|]);
    intros i j Hi Hj _; cbn in Hi, Hj;
    do 2 (destruct i as [|i]; [do 2 (destruct j as [|j]; [vm_compute; discriminate|]); lia|]); lia.
  - exists (1#1000), 1. apply seg_cloud; repeat constructor.
  - lia.
  - reflexivity.
  - split; vm_compute; congruence.
  - split; [discriminate|vm_compute; reflexivity].
  - discriminate.
Qed.
Lemma exS_given rows : length rows = 2 -> given (Feat 1 (inr exS_F)) (seg 2 rows exS_ids 1) 1 exS_F.
Proof. intros H. split; [reflexivity|]. split; [|exact (eq_sym H)]. destruct rows as [|a [|b [|c l]]]; try discriminate H. reflexivity. Qed.
Lemma exS_scaled : scaled 2 (2#1) (fun _ => 0%Q) 0 (exS_rows, exS_ids) 0 (exS_double, exS_ids) [(0,0);(1,1)].
Proof.
  split; [split; reflexivity|]. intros i j d [E|[E|[]]] Hd; injection E as <- <-; (destruct d as [|[|d]]; [vm_compute; reflexivity..|lia]).
Qed.
Lemma exS_value r rows dens mx : near_points 2 r rows exS_ids rows exS_ids 0 = [0;1] ->
  pt_formula 2 r rows exS_ids rows exS_ids exS_F 1 1 (fun x => Rmax 0 x) exS_axis (fun _ => 0%R) (fun _ => 1%R) (fun _ => 0%R) (fun _ => 0%R) (fun _ => 0%R) (fun _ => 1%R)
    dens mx 0 0 = (Rmax 0 (delta rows rows 0 0 0) + Rmax 0 (delta rows rows 1 0 0))%R.
Proof.
  intros En. unfold pt_formula, weighted_sum. rewrite En.
  assert (Z : forall (l : list nat) (f : nat -> R), sum_over l (fun k => Rmax 0 (f k * 0 + 0) * 0)%R = 0%R).
  { intros l f. induction l as [|k l IH]; [reflexivity|]. unfold sum_over in *. cbn [map fold_right]. rewrite IH. ring. }
  unfold sum_over at 1. cbn [seq map fold_right]. unfold sum_over at 1. cbn [seq map fold_right]. unfold sum_over at 1. cbn [map fold_right].
  rewrite !Z. unfold sum_over. cbn [seq map fold_right exS_axis]. unfold fval, exS_F. cbn [nth].
  replace (delta rows rows 0 0 0 * 1 + (delta rows rows 0 0 1 * 0 + 0) + 0)%R with (delta rows rows 0 0 0) by ring.
  replace (delta rows rows 1 0 0 * 1 + (delta rows rows 1 0 1 * 0 + 0) + 0)%R with (delta rows rows 1 0 0) by ring.
  field.
Qed.
Lemma C69_pointconv_refuted_proof :
  ~ (forall eps eps2 D s r t e e2 rows ids pin crows cids pout rows2 ids2 pin2 crows2 cids2 pout2 ps qs feats feats2 cin F F2,
    (0 < s)%Q -> workable eps D r rows ids pin crows cids pout -> workable eps2 D (s * r) rows2 ids2 pin2 crows2 cids2 pout2 ->
    given feats pin cin F -> given feats2 pin2 cin F2 ->
    scaled D s t e (rows, ids) e2 (rows2, ids2) ps -> scaled D s t e (crows, cids) e2 (crows2, cids2) qs -> rows_match ps F F2 ->
    let search := find_neighbors_tf GPU in let kde := compute_pdf_tf GPU in
    forall cout hidden act a axis bias w w1 b1 w2 b2 bandwidth,
       2 <= length cids -> 2 <= length cids2 -> 0 < cin -> 0 < hidden -> activation act a -> (0 < bandwidth)%R ->
       let layer := mk_pointconv cin cout D hidden act axis bias w w1 b1 w2 b2 in
       exists o o2,
         pointconv_call GPU eps search kde layer feats pin pout r None bandwidth false false = Ok o /\
         pointconv_call GPU eps2 search kde layer feats2 pin2 pout2 (s * r) None bandwidth false false = Ok o2 /\
         outputs_match cout (length cids) (length cids2) qs o o2).
Proof.
  intros H.
  assert (Ha : activation "relu" (fun x => Rmax 0 x)) by (left; split; [apply means_lower; [repeat constructor|now left]|reflexivity]).
  assert (Hb : (0 < 1 / 5)%R) by lra. assert (L2 : 2 <= length exS_ids) by (cbn; lia). assert (L1 : 0 < 1) by lia.
  assert (M : rows_match [(0,0);(1,1)] exS_F exS_F) by (intros i j [E|[E|[]]]; injection E as <- <-; reflexivity).
  pose proof (exS_given exS_rows eq_refl) as G1. pose proof (exS_given exS_double eq_refl) as G2.
  destruct (H _ _ 2 (2#1) 1%Q _ 0 0 _ _ _ _ _ _ _ _ _ _ _ _ _ _ _ _ 1 exS_F exS_F ltac:(reflexivity) exS_workable1 exS_workable2
    G1 G2 exS_scaled exS_scaled M
    1 1 "relu"%string (fun x => Rmax 0 x) exS_axis (fun _ => 0%R) (fun _ => 1%R) (fun _ => 0%R) (fun _ => 0%R) (fun _ => 0%R) (fun _ => 1%R) (1/5)%R
    L2 L2 L1 L1 Ha Hb) as (o & o2 & E & E2 & T & T2 & -> & -> & _ & _ & Hm). clear H.
  rewrite (C34_pointconv_partial_proof _ _ _ _ _ _ _ _ _ _ 1 _ _ _ exS_axis (fun _ => 0%R) (fun _ => 1%R) (fun _ => 0%R) (fun _ => 0%R) (fun _ => 0%R) (fun _ => 1%R) _ _ _
    (top 2 1 exS_rows exS_ids exS_rows exS_ids (1/5)) _ _ exS_workable1 L2 L1 L1 Ha G1 Hb) in E
    by (intros i _ Hne; apply top_ok; [lia|reflexivity|exact Hb|exact Hne]).
  rewrite (C34_pointconv_partial_proof _ _ _ _ _ _ _ _ _ _ 1 _ _ _ exS_axis (fun _ => 0%R) (fun _ => 1%R) (fun _ => 0%R) (fun _ => 0%R) (fun _ => 0%R) (fun _ => 1%R) _ _ _
    (top 2 ((2#1) * 1) exS_double exS_ids exS_double exS_ids (1/5)) _ _ exS_workable2 L2 L1 L1 Ha G2 Hb) in E2
    by (intros i _ Hne; apply top_ok; [lia|reflexivity|exact Hb|exact Hne]).
  injection E as <-. injection E2 as <-.
  specialize (Hm 0 0 (or_introl eq_refl)). cbn [table exS_ids length seq map nth] in Hm. injection Hm as Hm.
  rewrite !exS_value in Hm by (vm_compute; reflexivity).
  unfold delta, xc in Hm. cbn [exS_rows exS_double nth] in Hm. unfold Q2R in Hm. cbn [Qnum Qden] in Hm.
  rewrite !(Rmax_right 0) in Hm by lra. lra.
Qed.

Lemma exS_cuda r rows : (0 < r)%Q -> length rows = 2 -> Forall (fun p => length p = 2) rows ->
  cuda_workable (scan_limit ex55_active 32) (1#1000) 2 r rows exS_ids (seg 2 rows exS_ids 1) rows exS_ids (seg 2 rows exS_ids 1).
Proof.
  intros Hr Hl Hf. constructor.
  - exists 1. split; [apply seg_cloud; auto; repeat constructor|repeat constructor].
  - exists 0%Q, 1. apply seg_cloud; auto; repeat constructor.
  - lia.
  - left; lia.
  - exact Hr.
  - discriminate.
  - split; [discriminate|]. cbn. lia.
Qed.
Example C69_scaled_ex_proof :
  workable (1#1000) 2 1 exS_rows exS_ids (seg 2 exS_rows exS_ids 1) exS_rows exS_ids (seg 2 exS_rows exS_ids 1) /\
  workable (1#1000) 2 ((2#1) * 1) exS_double exS_ids (seg 2 exS_double exS_ids 1) exS_double exS_ids (seg 2 exS_double exS_ids 1) /\
  given (Feat 1 (inr exS_F)) (seg 2 exS_rows exS_ids 1) 1 exS_F /\ given (Feat 1 (inr exS_F)) (seg 2 exS_double exS_ids 1) 1 exS_F /\
  scaled 2 (2#1) (fun _ => 0%Q) 0 (exS_rows, exS_ids) 0 (exS_double, exS_ids) [(0,0);(1,1)] /\
  near_points 2 1 exS_rows exS_ids exS_rows exS_ids 0 = [0;1] /\ near_points 2 ((2#1) * 1) exS_double exS_ids exS_double exS_ids 0 = [0;1] /\
  exists layer, mk_mcconv 1 4 2 2 [3;8] "ReLU" (fun k idx => INR (k + hd 0 idx)) (fun _ _ => 0%R) (fun idx => INR (hd 0 idx)) = Ok layer.
Proof.
  split; [exact exS_workable1|]. split; [exact exS_workable2|]. split; [now apply exS_given|]. split; [now apply exS_given|].
  split; [exact exS_scaled|]. split; [vm_compute; reflexivity|]. split; [vm_compute; reflexivity|]. eexists. reflexivity.
Qed.
Example C69_scaled_cuda_ex_proof :
  device_ok ex55_active 3 5 32 /\
  cuda_workable (scan_limit ex55_active 32) (1#1000) 2 1 exS_rows exS_ids (seg 2 exS_rows exS_ids 1) exS_rows exS_ids (seg 2 exS_rows exS_ids 1) /\
  cuda_workable (scan_limit ex55_active 32) (1#1000) 2 ((2#1) * 1) exS_double exS_ids (seg 2 exS_double exS_ids 1) exS_double exS_ids (seg 2 exS_double exS_ids 1) /\
  given (Feat 1 (inr exS_F)) (seg 2 exS_rows exS_ids 1) 1 exS_F /\ given (Feat 1 (inr exS_F)) (seg 2 exS_double exS_ids 1) 1 exS_F /\
  scaled 2 (2#1) (fun _ => 0%Q) 0 (exS_rows, exS_ids) 0 (exS_double, exS_ids) [(0,0);(1,1)] /\
  length exS_ids <= scan_limit ex55_active 32 /\ SpecGpuBasis.supported (last [3;8] 0 * 2) 1.
Proof.
  split; [exact ex55_device|]. split; [apply exS_cuda; [reflexivity|reflexivity|repeat constructor]|]. split; [apply exS_cuda; [reflexivity|reflexivity|repeat constructor]|].
  split; [now apply exS_given|]. split; [now apply exS_given|]. split; [exact exS_scaled|]. split; [cbn; lia|].
  split; [right; now left|]. split; [lia|left; lia].
Qed.
(** The two points turned by 90 degrees, moved and doubled. *)
Definition exS_turned : list point := [[5#1;5#1];[5#1;6#1]].
Lemma exS_similar : similar 2 (2#1) 0 (exS_rows, exS_ids) (exS_rows, exS_ids) 0 (exS_turned, exS_ids) (exS_turned, exS_ids) [(0,0);(1,1)] [(0,0);(1,1)].
Proof.
  split; [split; reflexivity|]. split; [split; reflexivity|].
  intros i j k l [E|[E|[]]] [E'|[E'|[]]]; injection E as <- <-; injection E' as <- <-; vm_compute; reflexivity.
Qed.
Example C69_pooling_ex_proof :
  (0 < 2#1)%Q /\ given (Feat 1 (inr exS_F)) (seg 2 exS_rows exS_ids 1) 1 exS_F /\ given (Feat 1 (inr exS_F)) (seg 2 exS_turned exS_ids 1) 1 exS_F /\
  similar 2 (2#1) 0 (exS_rows, exS_ids) (exS_rows, exS_ids) 0 (exS_turned, exS_ids) (exS_turned, exS_ids) [(0,0);(1,1)] [(0,0);(1,1)] /\
  workable (1#1000) 2 1 exS_rows exS_ids (seg 2 exS_rows exS_ids 1) exS_rows exS_ids (seg 2 exS_rows exS_ids 1) /\
  workable (1#1000) 2 ((2#1) * 1) exS_turned exS_ids (seg 2 exS_turned exS_ids 1) exS_turned exS_ids (seg 2 exS_turned exS_ids 1) /\
  device_ok ex55_active 3 5 32 /\
  cuda_workable (scan_limit ex55_active 32) (1#1000) 2 ((2#1) * 1) exS_turned exS_ids (seg 2 exS_turned exS_ids 1) exS_turned exS_ids (seg 2 exS_turned exS_ids 1).
Proof.
  split; [reflexivity|]. split; [now apply exS_given|]. split; [now apply exS_given|]. split; [exact exS_similar|]. split; [exact exS_workable1|]. split; [|split; [exact ex55_device|]].
  2:{ apply exS_cuda; [reflexivity|reflexivity|repeat constructor]. }
  constructor.
  - exists 1. split; [apply seg_cloud; repeat constructor|]. split; [repeat constructor|].
    exists [4%Z;4%Z]. split; [reflexivity|]. split; [vm_compute; discriminate|]. intros d Hd. destruct d as [|[|d]]; [| |lia]; (split; [cbn; lia|]);
    intros i j Hi Hj _; cbn in Hi, Hj;
    do 2 (destruct i as [|i]; [do 2 (destruct j as [|j]; [vm_compute; discriminate|]); lia|]); lia.
  - exists (1#1000), 1. apply seg_cloud; repeat constructor.
  - lia.
  - reflexivity.
  - split; vm_compute; congruence.
  - split; [discriminate|vm_compute; reflexivity].
  - discriminate.
Qed.
Example C69_density_ex_proof :
  exists g g2 n n2 v v2,
    usable (1#1000) 2 exS_rows exS_ids 1 [1#1] g /\ usable (1#1000) 2 exS_turned exS_ids 1 [2#1] g2 /\
    radii_match 2 (repeat (1#1) 2) [1#1] /\ radii_match 2 (repeat ((2#1) * (1#1))%Q 2) [2#1] /\
    snd (mk_nbh (find_neighbors_tf GPU) g (repeat (1#1) 2) None 0) = Ok n /\
    snd (mk_nbh (find_neighbors_tf GPU) g2 (repeat ((2#1) * (1#1))%Q 2) None 0) = Ok n2 /\
    similar 2 (2#1) 0 (exS_rows, exS_ids) (exS_rows, exS_ids) 0 (exS_turned, exS_ids) (exS_turned, exS_ids) [(0,0);(1,1)] [(0,0);(1,1)] /\
    compute_pdf_tf GPU n (repeat (1/5)%R 2) KConstant = Ok v /\ compute_pdf_tf GPU n2 (repeat (1/5)%R 2) KConstant = Ok v2 /\
    gsidx g = [0;1] /\ gsidx g2 = [0;1].
Proof.
  destruct (mk_grid GPU (1#1000) (seg 2 exS_rows exS_ids 1) [1#1]) as [g|] eqn:Eg; [|vm_compute in Eg; discriminate].
  destruct (mk_grid GPU (1#1000) (seg 2 exS_turned exS_ids 1) [2#1]) as [g2|] eqn:Eg2; [|vm_compute in Eg2; discriminate].
  assert (U : usable (1#1000) 2 exS_rows exS_ids 1 [1#1] g).
  { apply seg_usable; [exact Eg|lia|reflexivity|split; [reflexivity|repeat constructor]|reflexivity|repeat constructor|repeat constructor|cbn; lia|].
    vm_compute in Eg. inversion Eg; subst g. vm_compute. discriminate. }
  assert (U2 : usable (1#1000) 2 exS_turned exS_ids 1 [2#1] g2).
  { apply seg_usable; [exact Eg2|lia|reflexivity|split; [reflexivity|repeat constructor]|reflexivity|repeat constructor|repeat constructor|cbn; lia|].
    vm_compute in Eg2. inversion Eg2; subst g2. vm_compute. discriminate. }
  assert (M1 : radii_match 2 (repeat (1#1) 2) [1#1]) by (split; [reflexivity|]; split; [reflexivity|discriminate]).
  assert (M2 : radii_match 2 (repeat ((2#1) * (1#1))%Q 2) [2#1]) by (split; [reflexivity|]; split; [reflexivity|discriminate]).
  assert (V1 : valid_sizes 2 (repeat (1#1) 2)) by (split; [reflexivity|repeat constructor]).
  assert (V2 : valid_sizes 2 (repeat ((2#1) * (1#1))%Q 2)) by (split; [reflexivity|repeat constructor]).
  assert (Hb : Forall (fun x => (0 < x)%R) (repeat (1/5)%R 2)) by (repeat constructor; lra).
  assert (Hne : exS_ids <> []) by discriminate.
  destruct (snd (mk_nbh (find_neighbors_tf GPU) g (repeat (1#1) 2) None 0)) as [n|] eqn:En; [|vm_compute in Eg; inversion Eg; subst g; vm_compute in En; discriminate].
  destruct (snd (mk_nbh (find_neighbors_tf GPU) g2 (repeat ((2#1) * (1#1))%Q 2) None 0)) as [n2|] eqn:En2; [|vm_compute in Eg2; inversion Eg2; subst g2; vm_compute in En2; discriminate].
  destruct (C27_density_partial_proof GPU (1#1000) 2 exS_rows exS_ids 1 [1#1] g _ 0 n (repeat (1/5)%R 2) KConstant U M1 V1 Hne En eq_refl Hb) as (Ed & _).
  destruct (C27_density_partial_proof GPU (1#1000) 2 exS_turned exS_ids 1 [2#1] g2 _ 0 n2 (repeat (1/5)%R 2) KConstant U2 M2 V2 Hne En2 eq_refl Hb) as (Ed2 & _).
  exists g, g2, n, n2. do 2 eexists. split; [exact U|]. split; [exact U2|]. split; [exact M1|]. split; [exact M2|]. split; [exact En|]. split; [exact En2|].
  split; [exact exS_similar|]. split; [exact Ed|]. split; [exact Ed2|].
  vm_compute in Eg, Eg2. inversion Eg; subst g. inversion Eg2; subst g2. split; reflexivity.
Qed.
Example C69_pointconv_refuted_ex_proof :
  workable (1#1000) 2 1 exS_rows exS_ids (seg 2 exS_rows exS_ids 1) exS_rows exS_ids (seg 2 exS_rows exS_ids 1) /\
  workable (1#1000) 2 ((2#1) * 1) exS_double exS_ids (seg 2 exS_double exS_ids 1) exS_double exS_ids (seg 2 exS_double exS_ids 1) /\
  scaled 2 (2#1) (fun _ => 0%Q) 0 (exS_rows, exS_ids) 0 (exS_double, exS_ids) [(0,0);(1,1)] /\
  (forall dens mx, pt_formula 2 1 exS_rows exS_ids exS_rows exS_ids exS_F 1 1 (fun x => Rmax 0 x) exS_axis (fun _ => 0%R) (fun _ => 1%R) (fun _ => 0%R) (fun _ => 0%R) (fun _ => 0%R) (fun _ => 1%R) dens mx 0 0 = (1/2)%R) /\
  (forall dens mx, pt_formula 2 2 exS_double exS_ids exS_double exS_ids exS_F 1 1 (fun x => Rmax 0 x) exS_axis (fun _ => 0%R) (fun _ => 1%R) (fun _ => 0%R) (fun _ => 0%R) (fun _ => 0%R) (fun _ => 1%R) dens mx 0 0 = 1%R).
Proof.
  split; [exact exS_workable1|]. split; [exact exS_workable2|]. split; [exact exS_scaled|].
  split; intros dens mx; (rewrite exS_value by (vm_compute; reflexivity)); unfold delta, xc; cbn [exS_rows exS_double nth]; unfold Q2R; cbn [Qnum Qden];
    rewrite !(Rmax_right 0) by lra; lra.
Qed.
