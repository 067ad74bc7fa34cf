(** Proofs about the layers with the CUDA operations when the neighborhood is
    made before the call (C55). The statements are copied into
    PropertiesCudaPassed.v. *)
From Coq Require Import String List Arith ZArith NArith QArith Qround Qreals Reals Lia Lra Bool Permutation.
From Verif Require Import Tensor TensorFacts Spec SpecText TextFacts PointCloud SpecCloud History PointCloudFacts QFacts Grid SpecGrid GridFacts Neighbors SpecNeighbors NeighborFacts NeighborProofs Neighborhood NeighborhoodFacts
  SamplingFacts SamplingProofs Pdf SpecPdf PdfFacts PdfProofs RTensor RTensorFacts Layers SpecLayers LayerFacts LayerLink LayerProofs ConvProofs
  Cuda CudaFacts CudaExec GpuGrid GpuGridFacts GpuNeighbors GpuNeighborFacts
  GpuBasis GpuBasisFacts SpecGpuBasis GpuBasisProofs GpuPdf SpecGpuPdf GpuPdfFacts GpuPdfProofs
  CudaLayers SpecCudaLayers CudaLayerFacts CudaDensityFacts CudaConvFacts CudaLayerProofs GpuNeighborProofs LimitFacts LimitProofs SpecCudaPassed.
Import ListNotations.
Local Open Scope nat_scope.

(** A neighborhood that answers a request for the densities with bandwidth
    [bandwidth] with those for [used]. *)
Definition shares (active : kernel -> nat) (pactive warp : nat) (time : N) (D : nat) (r : Q) rows ids crows cids (pout : pc) (x : dnbh) (bandwidth used : R) : Prop :=
  exists g, cuda_nbh D r rows ids crows cids g pout (dn x) /\
  forall Q : dnbh -> list R -> Prop,
    (forall y, Q y (map (fun q => (ratio ^ D * density D (repeat used D) (repeat r D) rows ids (fst q))%R) (norig (dn x)))) ->
    get_pdf_gpu active pactive warp time x (repeat bandwidth D) KConstant false Q.

Lemma mcconv_passed :
  forall active pactive bactive warp time eps D r r' x used rows ids pin crows cids pout cin cout mlps sizes act a w b fw layer feats F
         bandwidth return_sorted return_padded out (Post : feat -> Prop),
    device_ok active pactive bactive warp ->
    cuda_workable (scan_limit active warp) eps D r rows ids pin crows cids pout -> shares active pactive warp time D r rows ids crows cids pout x bandwidth used ->
    mk_mcconv cin cout D mlps sizes act w b fw = Ok layer -> 0 < cout -> activation act a ->
    SpecGpuBasis.supported (last sizes 0 * mlps) cin ->
    given feats pin cin F ->
    returned pout return_sorted return_padded cout (table (length cids) cout (fun i o =>
      mc_formula D r rows ids crows cids F cin cout mlps sizes a w b fw r'
         (fun p _ => density D (repeat used D) (repeat r D) rows ids p) i o / ratio ^ D)%R) = Ok out ->
    Post out ->
    mcconv_gpu active pactive bactive warp time eps layer feats pin pout r' (Some x) bandwidth return_sorted return_padded Post.
Proof.
  intros active pactive bactive warp time eps D r r' x used rows ids pin crows cids pout cin cout mlps sizes act a w b fw l feats F bw srt pad
    out Post Hdev W (g & Hn & Hpdf) El Hc Ha Hs Hg Ho HPost.
  pose proof W as [(B & Hci & _) (ceps & CB & Hco) HD _ _ _ (Hcne & _)].
  pose proof (cloud_is _ _ _ _ _ _ _ Hci) as Hi. pose proof (cloud_is _ _ _ _ _ _ _ Hco) as Hio.
  pose proof El as El'. apply mk_mcconv_inv in El'. destruct El' as (_ & _ & _ & _ & _ & _ & Eq).
  unfold mcconv_gpu. replace (mc_in l) with cin by now rewrite Eq. replace (mc_dims l) with D by now rewrite Eq.
  split; [apply Hg|]. eexists. split; [exact (given_flat _ _ _ _ Hg)|].
  rewrite (ic_pts _ _ _ _ _ _ _ Hi), (ic_len _ _ _ _ _ _ _ Hi).
  cbn [layer_nbh_gpu]. apply Hpdf. intros y. clear Hpdf. set (n := dn x) in *. pose proof (cn_pairs _ _ _ _ _ _ _ _ _ Hn) as P.
  rewrite (scaled_diffs_pairs D r r' rows ids crows cids n pin pout P) by (first [apply Hi|apply Hio]). cbn [bind].
  pose proof (monte_carlo_ok D r rows ids crows cids n P GPU cin cout D mlps sizes act a w b fw l
     (fun q d => (delta rows crows (fst q) (snd q) d / Q2R r')%R)
     (fun q => (ratio ^ D * density D (repeat used D) (repeat r D) rows ids (fst q))%R)
     (fun idx => match idx with [i; j] => fval F i j | _ => 0%R end)
     (fun idx => match idx with [m; d] => let q := nth m (norig n) (0, 0) in (delta rows crows (fst q) (snd q) d / Q2R r')%R | _ => 0%R end)
     El ltac:(lia) (activation_name _ _ Ha) ltac:(intros; reflexivity)) as E. cbv zeta in E.
  unfold monte_carlo_conv in E. apply bind_ok in E. destruct E as (basis & Eb & E). apply bind_ok in E. destruct E as (wf & Ew & E).
  exists basis. split; [exact Eb|]. pose proof (mc_basis_tensor _ _ _ _ _ _ _ _ _ _ _ n _ _ _ El (activation_name _ _ Ha) Eb) as Tb.
  destruct Hdev as [_ _ Hba _ _].
  apply (projection_step bactive D r rows ids crows cids g pout n basis _ (last sizes 0 * mlps) cin wf); auto.
  - apply ttab_tensor.
  - exists out. split; [|exact HPost]. rewrite E. cbn [bind]. rewrite layer_output_table, <- Ho. f_equal. unfold table.
    apply map_ext. intros i. apply map_ext. intros o. rewrite <- mc_formula_scaled. reflexivity.
Qed.

Lemma pointconv_passed :
  forall active pactive bactive warp time eps D r r' x used rows ids pin crows cids pout cin cout hidden act a axis bias w w1 b1 w2 b2 feats F
         bandwidth mx return_sorted return_padded out (Post : feat -> Prop),
    device_ok active pactive bactive warp ->
    cuda_workable (scan_limit active warp) eps D r rows ids pin crows cids pout -> shares active pactive warp time D r rows ids crows cids pout x bandwidth used ->
    SpecGpuBasis.supported hidden cin -> activation act a -> given feats pin cin F -> (0 < used)%R ->
    let dens := density D (repeat used D) (repeat r D) rows ids in
    (forall i, i < length cids -> near_points D r rows ids crows cids i <> [] ->
       is_max (map dens (near_points D r rows ids crows cids i)) (mx i)) ->
    returned pout return_sorted return_padded cout (table (length cids) cout
      (pt_formula D r rows ids crows cids F cin hidden a axis bias w w1 b1 w2 b2 (fun p _ => dens p) mx)) = Ok out ->
    Post out ->
    pointconv_gpu active pactive bactive warp time eps (mk_pointconv cin cout D hidden act axis bias w w1 b1 w2 b2)
      feats pin pout r' (Some x) bandwidth return_sorted return_padded Post.
Proof.
  intros active pactive bactive warp time eps D r r' x used rows ids pin crows cids pout cin cout hidden act a axis bias w w1 b1 w2 b2 feats F
    bw mx srt pad out Post Hdev W (g & Hn & Hpdf) Hs Ha Hg Hb dens Hmx Ho HPost.
  pose proof W as [(B & Hci & _) (ceps & CB & Hco) HD _ Hr _ (Hcne & _)].
  pose proof (cloud_is _ _ _ _ _ _ _ Hci) as Hi. pose proof (cloud_is _ _ _ _ _ _ _ Hco) as Hio.
  assert (Hcin : cin <> 0) by (destruct Hs as (_ & ? & _); lia).
  assert (Hhid : hidden <> 0) by (destruct Hs as (Hk & _); intros ->; cbn in Hk; intuition discriminate).
  unfold pointconv_gpu. change (pt_dims (mk_pointconv cin cout D hidden act axis bias w w1 b1 w2 b2)) with D.
  eexists. split; [exact (given_flat _ _ _ _ Hg)|].
  rewrite (ic_pts _ _ _ _ _ _ _ Hi), (ic_len _ _ _ _ _ _ _ Hi).
  cbn [layer_nbh_gpu]. apply Hpdf. intros y. clear Hpdf. set (n := dn x) in *. pose proof (cn_pairs _ _ _ _ _ _ _ _ _ Hn) as P.
  rewrite (point_diffs_pairs D r rows ids crows cids n pin pout P) by (first [apply Hi|apply Hio]). cbn [bind].
  pose proof (cn_shape _ _ _ _ _ _ _ _ _ Hn) as Hrs.
  pose proof (point_conv_ok D r rows ids crows cids n P GPU cin cout hidden act a axis bias w w1 b1 w2 b2
     (fun q d => delta rows crows (fst q) (snd q) d)
     (fun q => (ratio ^ D * density D (repeat used D) (repeat r D) rows ids (fst q))%R)
     (fun idx => match idx with [i; j] => fval F i j | _ => 0%R end)
     (fun idx => match idx with [m; d] => let q := nth m (norig n) (0, 0) in delta rows crows (fst q) (snd q) d | _ => 0%R end)
     Hrs (activation_name _ _ Ha) Hcin Hhid ltac:(intros; reflexivity)) as E.
  unfold point_conv in E. apply bind_ok in E. destruct E as (basis & Eb & E). apply bind_ok in E. destruct E as (wf & Ew & E).
  exists basis. split; [exact Eb|].
  pose proof (pt_basis_tensor D r rows ids crows cids n P cin cout hidden act a axis bias w w1 b1 w2 b2 _ _ basis Hrs (activation_name _ _ Ha) Eb) as Tb.
  destruct Hdev as [_ _ Hba _ _].
  apply (projection_step bactive D r rows ids crows cids g pout n basis _ hidden cin wf); auto.
  - apply ttab_tensor.
  - exists out. split; [|exact HPost]. rewrite E. cbn [bind]. rewrite layer_output_table, <- Ho. f_equal. unfold table.
    apply map_ext_in. intros i Hin. apply in_seq in Hin.
    apply map_ext. intros o. unfold pt_formula, weighted_sum. apply sum_over_ext. intros c _. apply sum_over_ext. intros h _.
    f_equal. apply sum_over_ext. intros p Hp. cbn [fst snd]. fold dens.
    pose proof (ratio_pos D ltac:(lia)) as Rp.
    assert (Hpos : forall j, In j (near_points D r rows ids crows cids i) -> (0 < dens j)%R).
    { intros j Hj. apply density_pos.
      - apply repeat_length.
      - apply Forall_forall. intros z Hz. apply repeat_spec in Hz. now subst.
      - now rewrite nth_repeat_lt by lia.
      - unfold near_points in Hj. apply filter_In in Hj as [Hj _]. apply in_seq in Hj. lia. }
    assert (Hne' : near_points D r rows ids crows cids i <> []) by (intros E0; rewrite E0 in Hp; exact Hp).
    destruct (Hmx i ltac:(lia) Hne') as [M1 M2].
    assert (Em : red_max (map (fun p => (ratio ^ D * dens p)%R) (near_points D r rows ids crows cids i)) = (ratio ^ D * mx i)%R).
    { apply (max_unique (map (fun p => (ratio ^ D * dens p)%R) (near_points D r rows ids crows cids i))).
      - apply red_max_ok.
        + intros E0. apply map_eq_nil in E0. auto.
        + apply Forall_map, Forall_forall. intros j Hj. apply Rle_trans with 0%R.
          * unfold rlowest. assert (0 <= Q2R flt_max)%R; [|lra]. replace 0%R with (Q2R 0) by (unfold Q2R; cbn; lra).
            apply Qle_Rle. unfold flt_max. vm_compute. discriminate.
          * apply Rlt_le, Rmult_lt_0_compat; [exact Rp|now apply Hpos].
      - split.
        + apply in_map_iff in M1. destruct M1 as (j & Ej & Hj). apply in_map_iff. exists j. split; [now rewrite <- Ej|exact Hj].
        + apply Forall_map. rewrite Forall_map in M2. eapply Forall_impl; [|exact M2]. cbv beta. intros j Hj. apply Rmult_le_compat_l; lra. }
    assert (Hm0 : (0 < mx i)%R).
    { apply in_map_iff in M1. destruct M1 as (j & Ej & Hj). rewrite <- Ej. now apply Hpos. }
    f_equal. f_equal. f_equal. apply sum_over_ext. intros k _. f_equal. f_equal. f_equal.
    unfold dens in Em |- *. rewrite Em. field. split; lra.
Qed.

Lemma kpconv_passed :
  forall active pactive bactive warp time eps D r r' x rows ids pin crows cids pout cin cout K deformable interpolation wt kernel_points w wo
         spherical layer feats F influence return_sorted return_padded (Post : feat -> kpstate -> Prop),
    device_ok active pactive bactive warp ->
    cuda_workable (scan_limit active warp) eps D r rows ids pin crows cids pout -> (exists g, cuda_nbh D r rows ids crows cids g pout (dn x)) ->
    mk_kpconv cin cout K D deformable interpolation
      (Some (ttab [K; D] (fun idx => match idx with [k; d] => kernel_points k d | _ => 0%R end))) spherical w wo = Ok layer ->
    0 < cin /\ (cin < 8 \/ cin mod 8 = 0) -> 0 < K <= 64 -> weighting interpolation wt -> given feats pin cin F ->
    let sigma := match influence with None => 1%R | Some s => (s / Q2R r')%R end in
    let start := fun (_ k d : nat) => (kernel_points k d * (3 / 4))%R in
    let conv := kp_formula D r rows ids crows cids F cin K in
    let offset := fun i k d => conv wo (fun v => wt v sigma) start r' i (k * D + d) in
    let positions := fun i k d => if deformable then (start i k d + offset i k d)%R else start i k d in
    forall out,
      returned pout return_sorted return_padded cout (table (length cids) cout (conv w (fun v => wt v sigma) positions r')) = Ok out ->
      (forall state,
        regularization_loss GPU layer state =
          (if deformable then
            Ok (sum_over (seq 0 (length cids)) (fun i => sum_over (seq 0 K) (fun k =>
                  fold_right Rmin (Q2R flt_max) (map (fun p =>
                    (norm D (fun d => delta rows crows p i d / Q2R r' - positions i k d) / sigma) ^ 2)
                    (near_points D r rows ids crows cids i)))) +
                sum_over (seq 0 (length cids)) (fun i => sum_over (seq 0 K) (fun k => sum_over (seq 0 K) (fun k' =>
                  if k =? k' then 0 else wt (norm D (fun d => positions i k' d - positions i k d)) sigma))))%R
          else Err AttributeError) ->
        Post out state) ->
      kpconv_gpu active bactive warp time eps layer feats pin pout r' (Some x) influence return_sorted return_padded Post.
Proof.
  intros active pactive bactive warp time eps D r r' x rows ids pin crows cids pout cin cout K deformable interpolation wt kernel_points w wo
    spherical layer feats F influence srt pad Post Hdev W (g & Hn) El Hcin HK Hwt Hg sigma start conv offset positions out Ho HPost.
  pose proof W as [(B & Hci & _) (ceps & CB & Hco) HD _ Hr _ (Hcne & _)].
  pose proof (cloud_is _ _ _ _ _ _ _ Hci) as Hi. pose proof (cloud_is _ _ _ _ _ _ _ Hco) as Hio.
  unfold mk_kpconv in El. rewrite (weighting_name _ _ Hwt) in El. cbn [bind] in El. rewrite andb_false_r in El. cbn [bind] in El.
  apply ok_inj in El. subst layer.
  set (layer := KPConv cin cout K D wt
     (tmap (fun x => (x * (3 / 4))%R) (ttab [K; D] (fun idx => match idx with [k; d] => kernel_points k d | _ => 0%R end)))
     (if deformable then Some (ttab [K * cin; K * D] wo) else None) (ttab [K * cin; cout] w)).
  unfold kpconv_gpu. eexists. split; [exact (given_flat _ _ _ _ Hg)|]. cbv zeta. fold sigma. change (kp_dims layer) with D.
  rewrite (ic_pts _ _ _ _ _ _ _ Hi), (ic_len _ _ _ _ _ _ _ Hi), (ic_pts _ _ _ _ _ _ _ Hio), (ic_len _ _ _ _ _ _ _ Hio).
  cbn [layer_nbh_gpu]. set (n := dn x) in *.
  pose proof (cn_pairs _ _ _ _ _ _ _ _ _ Hn) as P.
  eexists. split; [exact (scaled_diffs_pairs D r r' rows ids crows cids n pin pout P (ic_pts _ _ _ _ _ _ _ Hi) (ic_dim _ _ _ _ _ _ _ Hi) (ic_len _ _ _ _ _ _ _ Hi)
    (ic_pts _ _ _ _ _ _ _ Hio) (ic_dim _ _ _ _ _ _ _ Hio) (ic_len _ _ _ _ _ _ _ Hio))|].
  destruct (kp_core D r rows ids crows cids n P cin cout K deformable wt kernel_points w wo F r' sigma ltac:(lia) ltac:(lia))
    as (offs & d & o & E1 & E2 & E3 & E4 & E5 & E6).
  cbv zeta in E1, E2, E3, E4, E5, E6. fold layer in E1, E2, E3.
  assert (Hrest : step (kp_dists layer (ttab [length (norig n); D] (fun idx => match idx with
      | [m; d] => let q := nth m (norig n) (0, 0) in (delta rows crows (fst q) (snd q) d / Q2R r')%R | _ => 0%R end))
      (match offs with Some o => Some (snd o) | None => None end)) (fun d =>
    kp_aggregate_gpu bactive layer d sigma n (ttab [length ids; cin] (fun idx => match idx with [i; j] => fval F i j | _ => 0%R end)) (kp_w layer) (fun o =>
    step (layer_output o pout srt pad) (fun o =>
      Post o (KPState sigma (length cids) d (norig n) (match offs with Some o => Some (fst o) | None => None end)))))).
  { exists d. split; [exact E2|]. rewrite E5 in E3 |- *.
    eapply (kp_aggregate_step active pactive bactive warp eps Hdev D r rows ids pin crows cids pout W g n layer); [exact Hn|exact HK|exact Hcin|exact E3|].
    exists out. split; [rewrite E4, layer_output_table; exact Ho|]. apply HPost.
    rewrite E6. apply (kp_loss D r rows ids crows cids n P cin cout K deformable wt kernel_points w wo F r' sigma _ (length cids) eq_refl eq_refl). }
  unfold kernel_offsets_gpu. revert E1. case_eq (kp_deform layer).
  - intros wo' Ed E1. apply bind_ok in E1. destruct E1 as (off & E1 & E1'). apply ok_inj in E1'. subst offs.
    unfold kernel_offsets in E1. apply bind_ok in E1. destruct E1 as (d0 & Ed0 & E1). apply bind_ok in E1. destruct E1 as (o0 & Eo0 & E1).
    exists d0. split; [exact Ed0|].
    rewrite (kp_dists_ok n layer (fun k d => (kernel_points k d * (3 / 4))%R)
       (kp_pts D cin cout K deformable wt kernel_points w wo) _ (fun q d => (delta rows crows (fst q) (snd q) d / Q2R r')%R)) in Ed0 by (intros; reflexivity).
    apply ok_inj in Ed0. rewrite Ed0 in Eo0 |- *.
    eapply (kp_aggregate_step active pactive bactive warp eps Hdev D r rows ids pin crows cids pout W g n layer); [exact Hn|exact HK|exact Hcin|exact Eo0|].
    exists off. split; [exact E1|]. exact Hrest.
  - intros Ed E1. apply ok_inj in E1. subst offs. exact Hrest.
Qed.

Lemma shared_ok active pactive bactive warp time eps D r rows ids pin crows cids pout earlier bandwidth (P : dnbh -> Prop) :
  device_ok active pactive bactive warp ->
  cuda_workable (scan_limit active warp) eps D r rows ids pin crows cids pout -> length ids <= scan_limit active warp ->
  (0 < used_bandwidth earlier bandwidth)%R ->
  (forall x, shares active pactive warp time D r rows ids crows cids pout x bandwidth (used_bandwidth earlier bandwidth) -> P x) ->
  shared_neighborhood active pactive warp time eps D pin pout r earlier P.
Proof.
  intros Hdev W Hlen Hb HP. unfold shared_neighborhood.
  change (layer_nbh_gpu active warp time eps D pin pout r None (fun x => match earlier with
    | None => P x | Some b => get_pdf_gpu active pactive warp time x (repeat b D) KConstant false (fun x _ => P x) end)).
  apply (layer_nbh_gpu_ok active pactive bactive warp time eps Hdev D r rows ids pin crows cids pout W). intros n (g & Hn) Hpdf.
  destruct earlier as [b|]; cbn [used_bandwidth] in *.
  - apply Hpdf; auto. cbv zeta. apply HP. exists g. split; [exact Hn|]. intros Q HQ. unfold get_pdf_gpu. cbn [dpdf]. apply HQ.
  - apply HP. exists g. split; [exact Hn|]. intros Q HQ. apply Hpdf; auto.
Qed.
Lemma shared_kp active pactive bactive warp time eps D r rows ids pin crows cids pout earlier (P : dnbh -> Prop) :
  device_ok active pactive bactive warp ->
  cuda_workable (scan_limit active warp) eps D r rows ids pin crows cids pout ->
  (forall b, earlier = Some b -> (0 < b)%R /\ length ids <= scan_limit active warp) ->
  (forall x, (exists g, cuda_nbh D r rows ids crows cids g pout (dn x)) -> P x) ->
  shared_neighborhood active pactive warp time eps D pin pout r earlier P.
Proof.
  intros Hdev W Hlen HP. unfold shared_neighborhood.
  change (layer_nbh_gpu active warp time eps D pin pout r None (fun x => match earlier with
    | None => P x | Some b => get_pdf_gpu active pactive warp time x (repeat b D) KConstant false (fun x _ => P x) end)).
  apply (layer_nbh_gpu_ok active pactive bactive warp time eps Hdev D r rows ids pin crows cids pout W). intros n Hn Hpdf.
  destruct earlier as [b|].
  - destruct (Hlen b eq_refl) as (Hb & Hl). apply Hpdf; auto.
  - apply HP. exact Hn.
Qed.

(** C55, MCConv with a neighborhood made before with radius [r], whose densities
    may have been requested before with another bandwidth: the points within [r]
    contribute, with differences divided by the radius [r'] of the call, divided
    by the density of the first request. *)
Lemma C55_mcconv_neighborhood_partial_proof :
  forall active pactive bactive warp time eps D r r' rows ids pin crows cids pout cin cout mlps sizes act a w b fw layer feats F
         earlier bandwidth return_sorted return_padded,
    device_ok active pactive bactive warp ->
    cuda_workable (scan_limit active warp) eps D r rows ids pin crows cids pout -> length ids <= scan_limit active warp ->
    mk_mcconv cin cout D mlps sizes act w b fw = Ok layer -> 0 < cout -> activation act a ->
    SpecGpuBasis.supported (last sizes 0 * mlps) cin ->
    given feats pin cin F -> (0 < used_bandwidth earlier bandwidth)%R ->
    let factor := ((0.39894228 * sqrt (2 * PI)) ^ D)%R in
    (1 - 1 / 100000000 <= factor <= 1)%R /\
    forall out,
      returned pout return_sorted return_padded cout (table (length cids) cout (fun i o =>
        mc_formula D r rows ids crows cids F cin cout mlps sizes a w b fw r'
           (fun p _ => density D (repeat (used_bandwidth earlier bandwidth) D) (repeat r D) rows ids p) i o / factor)%R) = Ok out ->
      shared_neighborhood active pactive warp time eps D pin pout r earlier (fun x =>
        mcconv_gpu active pactive bactive warp time eps layer feats pin pout r' (Some x) bandwidth return_sorted return_padded (fun o => o = out)).
Proof.
  intros active pactive bactive warp time eps D r r' rows ids pin crows cids pout cin cout mlps sizes act a w b fw l feats F earlier bw srt pad
    Hdev W Hlen El Hc Ha Hs Hg Hb factor. change factor with (ratio ^ D)%R. clear factor.
  split; [apply ratio_pow; apply (cw_dim _ _ _ _ _ _ _ _ _ _ W)|]. intros out Ho.
  apply (shared_ok active pactive bactive warp time eps D r rows ids pin crows cids pout earlier bw); auto. intros x Hx.
  eapply (mcconv_passed active pactive bactive warp time eps D r r' x); [exact Hdev|exact W|exact Hx|exact El|exact Hc|exact Ha|exact Hs|exact Hg|exact Ho|reflexivity].
Qed.

(** C55, PointConv with a neighborhood made before. *)
Lemma C55_pointconv_neighborhood_partial_proof :
  forall active pactive bactive warp time eps D r r' rows ids pin crows cids pout cin cout hidden act a axis bias w w1 b1 w2 b2 feats F
         earlier bandwidth mx return_sorted return_padded,
    device_ok active pactive bactive warp ->
    cuda_workable (scan_limit active warp) eps D r rows ids pin crows cids pout -> length ids <= scan_limit active warp ->
    SpecGpuBasis.supported hidden cin -> activation act a -> given feats pin cin F -> (0 < used_bandwidth earlier bandwidth)%R ->
    let dens := density D (repeat (used_bandwidth earlier bandwidth) D) (repeat r D) rows ids in
    (forall i, i < length cids -> near_points D r rows ids crows cids i <> [] ->
       is_max (map dens (near_points D r rows ids crows cids i)) (mx i)) ->
    forall out,
      returned pout return_sorted return_padded cout (table (length cids) cout
        (pt_formula D r rows ids crows cids F cin hidden a axis bias w w1 b1 w2 b2 (fun p _ => dens p) mx)) = Ok out ->
      shared_neighborhood active pactive warp time eps D pin pout r earlier (fun x =>
        pointconv_gpu active pactive bactive warp time eps (mk_pointconv cin cout D hidden act axis bias w w1 b1 w2 b2)
          feats pin pout r' (Some x) bandwidth return_sorted return_padded (fun o => o = out)).
Proof.
  intros active pactive bactive warp time eps D r r' rows ids pin crows cids pout cin cout hidden act a axis bias w w1 b1 w2 b2 feats F
    earlier bw mx srt pad Hdev W Hlen Hs Ha Hg Hb dens Hmx out Ho.
  apply (shared_ok active pactive bactive warp time eps D r rows ids pin crows cids pout earlier bw); auto. intros x Hx.
  eapply (pointconv_passed active pactive bactive warp time eps D r r' x); [exact Hdev|exact W|exact Hx|exact Hs|exact Ha|exact Hg|exact Hb|exact Hmx|exact Ho|reflexivity].
Qed.

(** C55, KPConv with a neighborhood made before with radius [r], in a call with
    radius [r']. *)
Lemma C55_kpconv_neighborhood_partial_proof :
  forall active pactive bactive warp time eps D r r' rows ids pin crows cids pout cin cout K deformable interpolation wt kernel_points w wo
         spherical layer feats F earlier influence return_sorted return_padded,
    device_ok active pactive bactive warp ->
    cuda_workable (scan_limit active warp) eps D r rows ids pin crows cids pout ->
    (forall b, earlier = Some b -> (0 < b)%R /\ length ids <= scan_limit active warp) ->
    mk_kpconv cin cout K D deformable interpolation
      (Some (ttab [K; D] (fun idx => match idx with [k; d] => kernel_points k d | _ => 0%R end))) spherical w wo = Ok layer ->
    0 < cin /\ (cin < 8 \/ cin mod 8 = 0) -> 0 < K <= 64 -> weighting interpolation wt -> given feats pin cin F ->
    let sigma := match influence with None => 1%R | Some s => (s / Q2R r')%R end in
    let start := fun (_ k d : nat) => (kernel_points k d * (3 / 4))%R in
    let conv := kp_formula D r rows ids crows cids F cin K in
    let offset := fun i k d => conv wo (fun v => wt v sigma) start r' i (k * D + d) in
    let positions := fun i k d => if deformable then (start i k d + offset i k d)%R else start i k d in
    forall out,
      returned pout return_sorted return_padded cout (table (length cids) cout (conv w (fun v => wt v sigma) positions r')) = Ok out ->
      shared_neighborhood active pactive warp time eps D pin pout r earlier (fun x =>
        kpconv_gpu active bactive warp time eps layer feats pin pout r' (Some x) influence return_sorted return_padded (fun o state =>
          o = out /\
          regularization_loss GPU layer state =
            if deformable then
              Ok (sum_over (seq 0 (length cids)) (fun i => sum_over (seq 0 K) (fun k =>
                    fold_right Rmin (Q2R flt_max) (map (fun p =>
                      (norm D (fun d => delta rows crows p i d / Q2R r' - positions i k d) / sigma) ^ 2)
                      (near_points D r rows ids crows cids i)))) +
                  sum_over (seq 0 (length cids)) (fun i => sum_over (seq 0 K) (fun k => sum_over (seq 0 K) (fun k' =>
                    if k =? k' then 0 else wt (norm D (fun d => positions i k' d - positions i k d)) sigma))))%R
            else Err AttributeError)).
Proof.
  intros active pactive bactive warp time eps D r r' rows ids pin crows cids pout cin cout K deformable interpolation wt kernel_points w wo
    spherical layer feats F earlier influence srt pad Hdev W Hlen El Hcin HK Hwt Hg sigma start conv offset positions out Ho.
  apply (shared_kp active pactive bactive warp time eps D r rows ids pin crows cids pout earlier); auto. intros x Hx.
  eapply (kpconv_passed active pactive bactive warp time eps D r r' x); [exact Hdev|exact W|exact Hx|exact El|exact Hcin|exact HK|exact Hwt|exact Hg|exact Ho|].
  intros st Est. split; [reflexivity|exact Est].
Qed.

(** Concrete cases: the densities were requested before with bandwidth 1/3, the
    radius of the call is 2, that of the neighborhood 1. *)
Example C55_mcconv_neighborhood_partial_ex_proof :
  exists layer,
    device_ok ex55_active 3 5 32 /\
    cuda_workable (scan_limit ex55_active 32) (1#1000) 2 1 exN_rows exN_ids (seg 2 exN_rows exN_ids 2) exN_rows exN_ids (seg 2 exN_rows exN_ids 2) /\
    length exN_ids <= scan_limit ex55_active 32 /\
    mk_mcconv 2 4 2 2 [3;8] "ReLU" (fun k idx => INR (k + hd 0 idx)) (fun _ _ => 0%R) (fun idx => INR (hd 0 idx)) = Ok layer /\
    activation "ReLU" (fun x => Rmax 0 x) /\ SpecGpuBasis.supported (last [3;8] 0 * 2) 2 /\
    given (Feat 2 (inr exN_F)) (seg 2 exN_rows exN_ids 2) 2 exN_F /\ (0 < used_bandwidth (Some (1/3)) (1/5))%R /\
    exists out, shared_neighborhood ex55_active 3 32 0 (1#1000) 2 (seg 2 exN_rows exN_ids 2) (seg 2 exN_rows exN_ids 2) 1 (Some (1/3)%R) (fun x =>
      mcconv_gpu ex55_active 3 5 32 0 (1#1000) layer (Feat 2 (inr exN_F)) (seg 2 exN_rows exN_ids 2) (seg 2 exN_rows exN_ids 2) 2 (Some x) (1/5)%R false false
        (fun o => o = out)).
Proof.
  assert (El : exists layer, mk_mcconv 2 4 2 2 [3;8] "ReLU" (fun k idx => INR (k + hd 0 idx)) (fun _ _ => 0%R) (fun idx => INR (hd 0 idx)) = Ok layer)
    by (eexists; reflexivity). destruct El as (layer & El). exists layer.
  assert (Ha : activation "ReLU" (fun x => Rmax 0 x)) by (left; split; [apply means_lower; [repeat constructor|now left]|reflexivity]).
  assert (Hs : SpecGpuBasis.supported (last [3;8] 0 * 2) 2) by (split; [right; now left|]; split; [lia|left; lia]).
  assert (Hl : length exN_ids <= scan_limit ex55_active 32) by (cbn; lia).
  assert (Hb : (0 < used_bandwidth (Some (1/3)) (1/5))%R) by (cbn [used_bandwidth]; lra).
  repeat (split; [first [exact ex55_device|exact ex55_workable|exact Hl|exact El|exact Ha|exact Hs|exact exN_given|exact Hb]|]).
  eexists. refine (proj2 (C55_mcconv_neighborhood_partial_proof _ _ _ _ 0%N _ _ _ 2 _ _ _ _ _ _ _ 4 _ _ _ _ _ _ _ layer _ _
    (Some (1/3)%R) (1/5)%R false false ex55_device ex55_workable Hl El ltac:(lia) Ha Hs exN_given Hb) _ _).
  unfold returned. cbn [format_output snd]. reflexivity.
Qed.
Example C55_pointconv_neighborhood_partial_ex_proof :
  device_ok ex55_active 3 5 32 /\
  cuda_workable (scan_limit ex55_active 32) (1#1000) 2 1 exN_rows exN_ids (seg 2 exN_rows exN_ids 2) [[1#2;1#2]] [0] (seg 2 [[1#2;1#2]] [0] 1) /\
  length exN_ids <= scan_limit ex55_active 32 /\ SpecGpuBasis.supported 16 2 /\ activation "elu" (fun x => if Rlt_dec 0 x then x else exp x - 1)%R /\
  given (Feat 2 (inr exN_F)) (seg 2 exN_rows exN_ids 2) 2 exN_F /\ (0 < used_bandwidth None (1/5))%R /\
  near_points 2 1 exN_rows exN_ids [[1#2;1#2]] [0] 0 = [0;1] /\
  (exists mx, is_max (map (density 2 (repeat (used_bandwidth None (1/5)) 2) (repeat (1#1) 2) exN_rows exN_ids)
                        (near_points 2 1 exN_rows exN_ids [[1#2;1#2]] [0] 0)) mx) /\
  forall f, returned (seg 2 [[1#2;1#2]] [0] 1) false false 3 (table 1 3 f) = Ok (Feat 3 (inr (table 1 3 f))).
Proof.
  destruct C55_pointconv_partial_ex_proof as (H1 & H2 & H3 & H4 & H5 & H6 & H7 & H8 & H9).
  repeat (split; [first [assumption|cbn [used_bandwidth]; lra]|]). exact H9.
Qed.
Example C55_kpconv_neighborhood_partial_ex_proof :
  exists layer,
    device_ok ex55_active 3 5 32 /\
    cuda_workable (scan_limit ex55_active 32) (1#1000) 2 1 exN_rows exN_ids (seg 2 exN_rows exN_ids 2) exN_rows exN_ids (seg 2 exN_rows exN_ids 2) /\
    mk_kpconv 2 4 9 2 true "linear" (Some (ttab [9; 2] (fun idx => match idx with [k; d] => (fun k d => INR (k + d)) k d | _ => 0%R end)))
      (fun _ => Err ValueError) (fun idx => INR (hd 0 idx)) (fun idx => INR (hd 0 idx)) = Ok layer /\
    weighting "linear" (fun v s => Rmax 0 (1 - v / s))%R /\ given (Feat 2 (inr exN_F)) (seg 2 exN_rows exN_ids 2) 2 exN_F /\
    exists out loss, shared_neighborhood ex55_active 3 32 0 (1#1000) 2 (seg 2 exN_rows exN_ids 2) (seg 2 exN_rows exN_ids 2) 1 (Some (1/3)%R) (fun x =>
      kpconv_gpu ex55_active 5 32 0 (1#1000) layer (Feat 2 (inr exN_F)) (seg 2 exN_rows exN_ids 2) (seg 2 exN_rows exN_ids 2) 2 (Some x) None false false
        (fun o state => o = out /\ regularization_loss GPU layer state = Ok loss)).
Proof.
  assert (El : exists layer, mk_kpconv 2 4 9 2 true "linear" (Some (ttab [9; 2] (fun idx => match idx with [k; d] => (fun k d => INR (k + d)) k d | _ => 0%R end)))
      (fun _ => Err ValueError) (fun idx => INR (hd 0 idx)) (fun idx => INR (hd 0 idx)) = Ok layer) by (eexists; reflexivity).
  destruct El as (layer & El). exists layer.
  assert (Hw : weighting "linear" (fun v s => Rmax 0 (1 - v / s))%R) by (left; split; reflexivity).
  repeat (split; [first [exact ex55_device|exact ex55_workable|exact El|exact Hw|exact exN_given]|]).
  assert (Hb : forall b, Some (1/3)%R = Some b -> (0 < b)%R /\ length exN_ids <= scan_limit ex55_active 32)
    by (intros b E; injection E as <-; split; [lra|cbn; lia]).
  eexists. eexists. refine (C55_kpconv_neighborhood_partial_proof _ _ _ _ 0%N _ _ _ 2 _ _ _ _ _ _ _ _ _ true _ _ (fun k d => INR (k + d)) _ _ _ layer _ _
    (Some (1/3)%R) None false false ex55_device ex55_workable Hb El _ _ Hw exN_given _ _).
  - split; [lia|left; lia].
  - lia.
  - unfold returned. cbn [format_output snd]. reflexivity.
Qed.

(** ** A limit for the neighbors *)
(** C43, partial, for the neighborhood object: with a limit that no center
    exceeds it has all neighbors, each once, for every device, schedule and
    clock. *)
Lemma C43_neighborhood_partial_proof :
  forall active pactive bactive warp time eps D r rows ids pin crows cids pout k,
    device_ok active pactive bactive warp ->
    cuda_workable (scan_limit active warp) eps D r rows ids pin crows cids pout ->
    (forall i, i < length cids -> length (near_points D r rows ids crows cids i) <= k) ->
    mk_grid_gpu (active KKeys) warp eps pin (repeat r D) (fun g =>
      neighborhood_gpu active warp time g (repeat r D) (Some pout) k (fun n =>
        NoDup (norig n) /\ forall j i, In (j, i) (norig n) <-> near D r rows ids crows cids j i)).
Proof.
  intros active pactive bactive warp time eps D r rows ids pin crows cids pout k Hdev W Hk.
  destruct W as [(B & Hc & HcB) (ceps & CB & Ho) HD Hl Hr Hne (Hcne & Hlen)]. pose proof Hdev as [Ha _ _ Hw _].
  apply (mk_grid_gpu_ok (active KKeys) warp eps D rows ids B pin (repeat r D)); auto.
  - apply cloud_is, Hc.
  - now apply valid_repeat.
  - intros g G. replace (bcast D (repeat r D)) with (repeat r D) in G by (symmetry; apply all_dims_repeat).
    assert (Hl' : D <= 3 \/ (3 <= nth (D - 1) (gnc g) 0)%Z) by (apply (last_cells eps D r rows ids B g); auto; lia).
    eapply (neighborhood_gpu_limit active pactive bactive warp time eps Hdev D r rows ids B g HD Hr Hne G Hl' ceps crows cids CB pout (Some pout));
      [reflexivity|auto|apply cloud_is, Ho|auto|auto| |].
    + right. intros i. destruct (Nat.lt_ge_cases i (length cids)) as [Hi|Hi].
      * exists (near_points D r rows ids crows cids i). split; [now apply Hk|].
        intros j Hj. apply (inside_near D r rows ids crows cids j i Hr) in Hj. now apply near_points_In.
      * exists []. split; [apply Nat.le_0_l|]. intros j (_ & Hj & _). exfalso. apply (Nat.lt_irrefl i). eapply Nat.lt_le_trans; eauto.
    + intros n Hn _. destruct (cn_pairs _ _ _ _ _ _ _ _ _ Hn) as [H1 H2 _ _]. auto.
Qed.

(** C43 refuted for the neighborhood object: with limit one, the two neighbors of
    the only center make it fail. *)
Lemma C43_neighborhood_refuted_proof :
  mk_grid_gpu 1 32 (1#1000) (seg 2 ex43_rows [0;0] 1) [1#1] (fun g =>
    ~ neighborhood_gpu (fun _ => 1) 32 0 g [1#1] (Some (seg 2 [[0;0]%Q] [0] 1)) 1 (fun _ => True)).
Proof.
  assert (C1 : cloud GPU (1#1000) 2 ex43_rows [0;0] 1 (seg 2 ex43_rows [0;0] 1)) by (apply seg_cloud; repeat constructor).
  apply mk_grid_gpu_ok with (D := 2) (rows := ex43_rows) (ids := [0;0]) (B := 1); auto; try discriminate.
  { unfold GpuGrid.supported; lia. } { now apply cloud_is. } { split; [reflexivity|repeat constructor]. }
  intros g G F. unfold neighborhood_gpu in F. destruct F as (c & Ec & F). injection Ec as <-.
  apply limit_stage in F; [|rewrite (ic_dim _ _ _ _ _ _ _ (gg_cloud _ _ _ _ _ _ _ G)); right; reflexivity|exact G].
  eapply every_run_no_fault; [exact F|].
  match goal with |- some_fault ?s => destruct (exec [(0, Some 0); (0, Some 1); (0, Some 1)] s) as [s'|] eqn:E; [|vm_compute in E; discriminate] end.
  eapply exec_fault; [exact E|]. vm_compute in E. injection E as <-. vm_compute. reflexivity.
Qed.

(** At most two points are near a center. *)
Example C43_neighborhood_partial_ex_proof :
  device_ok ex55_active 3 5 32 /\
  cuda_workable (scan_limit ex55_active 32) (1#1000) 2 1 exN_rows exN_ids (seg 2 exN_rows exN_ids 2) exN_rows exN_ids (seg 2 exN_rows exN_ids 2) /\
  (forall i, i < length exN_ids -> length (near_points 2 1 exN_rows exN_ids exN_rows exN_ids i) <= 2).
Proof.
  split; [exact ex55_device|]. split; [exact ex55_workable|].
  intros i Hi. do 6 (destruct i; [vm_compute; lia|]). cbn in Hi. lia.
Qed.
