(** Proofs about the layers with the CUDA operations (C55). The statements are
    copied into PropertiesCudaLayers.v. *)
From Coq Require Import String List Arith ZArith NArith QArith Qround Qreals Reals Lia Lra Bool Permutation.
From Verif Require Import Tensor TensorFacts Spec SpecText TextFacts PointCloud SpecCloud History PointCloudFacts QFacts Grid SpecGrid GridFacts Neighbors SpecNeighbors NeighborFacts NeighborProofs Neighborhood NeighborhoodFacts
  SamplingFacts SamplingProofs Pdf SpecPdf PdfFacts PdfProofs RTensor RTensorFacts Layers SpecLayers LayerFacts LayerLink LayerProofs ConvProofs
  Cuda CudaFacts GpuGrid GpuGridFacts GpuNeighbors GpuNeighborFacts
  GpuBasis GpuBasisFacts SpecGpuBasis GpuBasisProofs GpuPdf SpecGpuPdf GpuPdfFacts GpuPdfProofs
  CudaLayers SpecCudaLayers CudaLayerFacts CudaDensityFacts CudaConvFacts.
Import ListNotations.
Local Open Scope nat_scope.

(** Local pooling, for every postcondition. *)
Lemma local_pooling_runs active pactive bactive warp time eps D r rows ids pin crows cids pout radii feats C F srt pad red out (Post : feat -> Prop) :
  device_ok active pactive bactive warp ->
  cuda_workable (scan_limit active warp) eps D r rows ids pin crows cids pout ->
  radii = [r] \/ radii = repeat r D -> given feats pin C F -> (forall l m, Permutation l m -> red l = red m) ->
  returned pout srt pad C (table (length cids) C (fun i c => red (map (fun j => fval F j c) (near_points D r rows ids crows cids i)))) = Ok out ->
  Post out -> local_pooling_gpu active warp time eps red feats pin pout (Some radii) srt pad Post.
Proof.
  intros Hdev W Hrad Hg Hred Ho HPost. unfold local_pooling_gpu.
  pose proof W as [(B & Hc & _) (ceps & CB & Hco) HD _ _ _ _].
  pose proof (cloud_is _ _ _ _ _ _ _ Hc) as Hi. pose proof (cloud_is _ _ _ _ _ _ _ Hco) as Hio.
  eexists. split; [exact (given_flat _ _ _ _ Hg)|]. eexists. split; [reflexivity|].
  rewrite (ic_dim _ _ _ _ _ _ _ Hi).
  replace (bcast D radii) with (repeat r D) by (destruct Hrad as [-> | ->]; [reflexivity|symmetry; apply all_dims_repeat]).
  apply (cuda_grid_nbh active pactive bactive warp time eps Hdev D r rows ids pin crows cids pout W). intros B' g n G _ Hn _.
  pose proof (cn_pairs _ _ _ _ _ _ _ _ _ Hn) as P1.
  exists out. split; [|exact HPost].
  rewrite (ic_pts _ _ _ _ _ _ _ Hi), (ic_len _ _ _ _ _ _ _ Hi), (ic_pts _ _ _ _ _ _ _ Hio), (ic_len _ _ _ _ _ _ _ Hio).
  rewrite tgather_ttab by apply (pairs_fst _ _ _ _ _ _ _ P1). cbn [bind].
  pose proof (pool_pairs D r rows ids crows cids n P1 GPU red C (fun idx => match idx with [i; j] => fval F i j | _ => 0%R end) Hred) as Hpool.
  rewrite tgather_ttab in Hpool by apply (pairs_fst _ _ _ _ _ _ _ P1). cbn [bind] in Hpool. rewrite Hpool. cbn [bind].
  rewrite layer_output_table. exact Ho.
Qed.

(** C55. Local pooling with the CUDA operations, for every device and every
    interleaving of the threads: row i holds the largest entry respectively
    the mean of each feature over the points within the radius of center i, as
    without them (C31). *)
Lemma C55_local_pooling_partial_proof :
  forall active pactive bactive warp time eps D r rows ids pin crows cids pout radii feats C F return_sorted return_padded,
    device_ok active pactive bactive warp ->
    cuda_workable (scan_limit active warp) eps D r rows ids pin crows cids pout ->
    radii = [r] \/ radii = repeat r D -> given feats pin C F ->
    let values := fun i c => map (fun j => fval F j c) (near_points D r rows ids crows cids i) in
    exists mx av,
      (forall out, returned pout return_sorted return_padded C (table (length cids) C mx) = Ok out ->
         max_pooling_gpu active warp time eps feats pin pout (Some radii) return_sorted return_padded (fun o => o = out)) /\
      (forall out, returned pout return_sorted return_padded C (table (length cids) C av) = Ok out ->
         average_pooling_gpu active warp time eps feats pin pout (Some radii) return_sorted return_padded (fun o => o = out)) /\
      forall i c, i < length cids -> c < C ->
        if values i c then mx i c = (- Q2R flt_max)%R /\ av i c = 0%R
        else (Forall (fun v => (- Q2R flt_max <= v)%R) (values i c) -> is_max (values i c) (mx i c)) /\
             av i c = mean (values i c).
Proof.
  intros active pactive bactive warp time eps D r rows ids pin crows cids pout radii feats C F srt pad Hdev W Hrad Hg values.
  assert (Hp : forall red out, (forall l m, Permutation l m -> red l = red m) ->
    returned pout srt pad C (table (length cids) C (fun i c => red (values i c))) = Ok out ->
    local_pooling_gpu active warp time eps red feats pin pout (Some radii) srt pad (fun o => o = out)).
  { intros red out Hred Ho.
    exact (local_pooling_runs active pactive bactive warp time eps D r rows ids pin crows cids pout radii feats C F srt pad red out
      (fun o => o = out) Hdev W Hrad Hg Hred Ho eq_refl). }
  exists (fun i c => red_max (values i c)), (fun i c => red_mean (values i c)).
  split; [intros out; apply Hp, red_max_perm|]. split; [intros out; apply Hp, red_mean_perm|].
  intros i c Hi' Hc'. destruct (values i c) as [|v l]; [split; [reflexivity|unfold red_mean; cbn; lra]|].
  split; [intros HF; now apply red_max_ok|now apply red_mean_ok].
Qed.

Lemma ratio_pos D : D <= 6 -> (0 < ratio ^ D)%R.
Proof. intros H. pose proof (ratio_pow D H). lra. Qed.

Lemma mc_formula_scaled D r0 rows ids crows cids F cin cout mlps sizes a w b fw r (c : R) dens i o :
  mc_formula D r0 rows ids crows cids F cin cout mlps sizes a w b fw r (fun p i => c * dens p i)%R i o =
  (mc_formula D r0 rows ids crows cids F cin cout mlps sizes a w b fw r dens i o / c)%R.
Proof.
  transitivity (/ c * mc_formula D r0 rows ids crows cids F cin cout mlps sizes a w b fw r dens i o)%R; [|unfold Rdiv; ring].
  unfold mc_formula. cbv zeta. unfold weighted_sum. rewrite sum_scale. apply sum_over_ext. intros x _.
  rewrite sum_scale. apply sum_over_ext. intros h _.
  match goal with |- _ = (/ c * (?f * ?s))%R => replace (/ c * (f * s))%R with (f * (/ c * s))%R by ring end.
  f_equal. rewrite sum_scale. apply sum_over_ext. intros p _. unfold Rdiv. rewrite Rinv_mult. ring.
Qed.

(** MCConv, for every postcondition. *)
Lemma mcconv_runs :
  forall active pactive bactive warp time eps D r rows ids pin crows cids pout cin cout mlps sizes act a w b fw layer feats F
         bandwidth return_sorted return_padded out (Post : feat -> Prop),
    device_ok active pactive bactive warp ->
    cuda_workable (scan_limit active warp) eps D r rows ids pin crows cids pout -> length ids <= scan_limit active warp ->
    mk_mcconv cin cout D mlps sizes act w b fw = Ok layer -> 0 < cout -> activation act a ->
    SpecGpuBasis.supported (last sizes 0 * mlps) cin ->
    given feats pin cin F -> (0 < bandwidth)%R ->
    returned pout return_sorted return_padded cout (table (length cids) cout (fun i o =>
      mc_formula D r rows ids crows cids F cin cout mlps sizes a w b fw r
         (fun p _ => density D (repeat bandwidth D) (repeat r D) rows ids p) i o / ratio ^ D)%R) = Ok out ->
    Post out ->
    mcconv_gpu active pactive bactive warp time eps layer feats pin pout r None bandwidth return_sorted return_padded Post.
Proof.
  intros active pactive bactive warp time eps D r rows ids pin crows cids pout cin cout mlps sizes act a w b fw l feats F bw srt pad
    out Post Hdev W Hlen El Hc Ha Hs Hg Hb Ho HPost.
  pose proof W as [(B & Hci & _) (ceps & CB & Hco) HD _ _ _ (Hcne & _)].
  pose proof (cloud_is _ _ _ _ _ _ _ Hci) as Hi. pose proof (cloud_is _ _ _ _ _ _ _ Hco) as Hio.
  pose proof El as El'. apply mk_mcconv_inv in El'. destruct El' as (_ & _ & _ & _ & _ & _ & Eq).
  unfold mcconv_gpu. replace (mc_in l) with cin by now rewrite Eq. replace (mc_dims l) with D by now rewrite Eq.
  split; [apply Hg|]. eexists. split; [exact (given_flat _ _ _ _ Hg)|].
  rewrite (ic_pts _ _ _ _ _ _ _ Hi), (ic_len _ _ _ _ _ _ _ Hi).
  apply (layer_nbh_gpu_ok active pactive bactive warp time eps Hdev D r rows ids pin crows cids pout W). intros n (g & Hn) Hpdf.
  apply Hpdf; auto. cbv zeta. cbn [dn]. pose proof (cn_pairs _ _ _ _ _ _ _ _ _ Hn) as P.
  rewrite (scaled_diffs_pairs D r r rows ids crows cids n pin pout P) by (first [apply Hi|apply Hio]). cbn [bind].
  pose proof (monte_carlo_ok D r rows ids crows cids n P GPU cin cout D mlps sizes act a w b fw l
     (fun q d => (delta rows crows (fst q) (snd q) d / Q2R r)%R)
     (fun q => (ratio ^ D * density D (repeat bw D) (repeat r D) rows ids (fst q))%R)
     (fun idx => match idx with [i; j] => fval F i j | _ => 0%R end)
     (fun idx => match idx with [m; d] => let q := nth m (norig n) (0, 0) in (delta rows crows (fst q) (snd q) d / Q2R r)%R | _ => 0%R end)
     El ltac:(lia) (activation_name _ _ Ha) ltac:(intros; reflexivity)) as E. cbv zeta in E.
  unfold monte_carlo_conv in E. apply bind_ok in E. destruct E as (basis & Eb & E). apply bind_ok in E. destruct E as (wf & Ew & E).
  exists basis. split; [exact Eb|]. pose proof (mc_basis_tensor _ _ _ _ _ _ _ _ _ _ _ n _ _ _ El (activation_name _ _ Ha) Eb) as Tb.
  destruct Hdev as [_ _ Hba _ _].
  apply (projection_step bactive D r rows ids crows cids g pout n basis _ (last sizes 0 * mlps) cin wf); auto.
  - apply ttab_tensor.
  - exists out. split; [|exact HPost]. rewrite E. cbn [bind]. rewrite layer_output_table, <- Ho. f_equal. unfold table.
    apply map_ext. intros i. apply map_ext. intros o. rewrite <- mc_formula_scaled. reflexivity.
Qed.

(** C55, MCConv: the formula of C34 (the result with the TensorFlow fallback)
    divided by the D-th power of 0.39894228 sqrt (2 PI), which differs from 1 by at
    most 1e-8; the number of basis functions must be 8, 16, 32 or 64 and that of
    input features 1 to 7 or a multiple of 8. *)
Lemma C55_mcconv_partial_proof :
  forall active pactive bactive warp time eps D r rows ids pin crows cids pout cin cout mlps sizes act a w b fw layer feats F
         bandwidth return_sorted return_padded,
    device_ok active pactive bactive warp ->
    cuda_workable (scan_limit active warp) eps D r rows ids pin crows cids pout -> length ids <= scan_limit active warp ->
    mk_mcconv cin cout D mlps sizes act w b fw = Ok layer -> 0 < cout -> activation act a ->
    SpecGpuBasis.supported (last sizes 0 * mlps) cin ->
    given feats pin cin F -> (0 < bandwidth)%R ->
    let factor := ((0.39894228 * sqrt (2 * PI)) ^ D)%R in
    (1 - 1 / 100000000 <= factor <= 1)%R /\
    forall out,
      returned pout return_sorted return_padded cout (table (length cids) cout (fun i o =>
        mc_formula D r rows ids crows cids F cin cout mlps sizes a w b fw r
           (fun p _ => density D (repeat bandwidth D) (repeat r D) rows ids p) i o / factor)%R) = Ok out ->
      mcconv_gpu active pactive bactive warp time eps layer feats pin pout r None bandwidth return_sorted return_padded (fun o => o = out).
Proof.
  intros active pactive bactive warp time eps D r rows ids pin crows cids pout cin cout mlps sizes act a w b fw l feats F bw srt pad
    Hdev W Hlen El Hc Ha Hs Hg Hb factor. change factor with (ratio ^ D)%R. clear factor.
  split; [apply ratio_pow; apply (cw_dim _ _ _ _ _ _ _ _ _ _ W)|]. intros out Ho.
  eapply mcconv_runs; eauto.
Qed.

(** PointConv, for every postcondition. *)
Lemma pointconv_runs :
  forall active pactive bactive warp time eps D r rows ids pin crows cids pout cin cout hidden act a axis bias w w1 b1 w2 b2 feats F
         bandwidth mx return_sorted return_padded out (Post : feat -> Prop),
    device_ok active pactive bactive warp ->
    cuda_workable (scan_limit active warp) eps D r rows ids pin crows cids pout -> length ids <= scan_limit active warp ->
    SpecGpuBasis.supported hidden cin -> activation act a -> given feats pin cin F -> (0 < bandwidth)%R ->
    let dens := density D (repeat bandwidth D) (repeat r D) rows ids in
    (forall i, i < length cids -> near_points D r rows ids crows cids i <> [] ->
       is_max (map dens (near_points D r rows ids crows cids i)) (mx i)) ->
    returned pout return_sorted return_padded cout (table (length cids) cout
      (pt_formula D r rows ids crows cids F cin hidden a axis bias w w1 b1 w2 b2 (fun p _ => dens p) mx)) = Ok out ->
    Post out ->
    pointconv_gpu active pactive bactive warp time eps (mk_pointconv cin cout D hidden act axis bias w w1 b1 w2 b2)
      feats pin pout r None bandwidth return_sorted return_padded Post.
Proof.
  intros active pactive bactive warp time eps D r rows ids pin crows cids pout cin cout hidden act a axis bias w w1 b1 w2 b2 feats F
    bw mx srt pad out Post Hdev W Hlen Hs Ha Hg Hb dens Hmx Ho HPost.
  pose proof W as [(B & Hci & _) (ceps & CB & Hco) HD _ Hr _ (Hcne & _)].
  pose proof (cloud_is _ _ _ _ _ _ _ Hci) as Hi. pose proof (cloud_is _ _ _ _ _ _ _ Hco) as Hio.
  assert (Hcin : cin <> 0) by (destruct Hs as (_ & ? & _); lia).
  assert (Hhid : hidden <> 0) by (destruct Hs as (Hk & _); intros ->; cbn in Hk; intuition discriminate).
  unfold pointconv_gpu. change (pt_dims (mk_pointconv cin cout D hidden act axis bias w w1 b1 w2 b2)) with D.
  eexists. split; [exact (given_flat _ _ _ _ Hg)|].
  rewrite (ic_pts _ _ _ _ _ _ _ Hi), (ic_len _ _ _ _ _ _ _ Hi).
  apply (layer_nbh_gpu_ok active pactive bactive warp time eps Hdev D r rows ids pin crows cids pout W). intros n (g & Hn) Hpdf.
  apply Hpdf; auto. cbv zeta. cbn [dn]. pose proof (cn_pairs _ _ _ _ _ _ _ _ _ Hn) as P.
  rewrite (point_diffs_pairs D r rows ids crows cids n pin pout P) by (first [apply Hi|apply Hio]). cbn [bind].
  pose proof (cn_shape _ _ _ _ _ _ _ _ _ Hn) as Hrs.
  pose proof (point_conv_ok D r rows ids crows cids n P GPU cin cout hidden act a axis bias w w1 b1 w2 b2
     (fun q d => delta rows crows (fst q) (snd q) d)
     (fun q => (ratio ^ D * density D (repeat bw D) (repeat r D) rows ids (fst q))%R)
     (fun idx => match idx with [i; j] => fval F i j | _ => 0%R end)
     (fun idx => match idx with [m; d] => let q := nth m (norig n) (0, 0) in delta rows crows (fst q) (snd q) d | _ => 0%R end)
     Hrs (activation_name _ _ Ha) Hcin Hhid ltac:(intros; reflexivity)) as E.
  unfold point_conv in E. apply bind_ok in E. destruct E as (basis & Eb & E). apply bind_ok in E. destruct E as (wf & Ew & E).
  exists basis. split; [exact Eb|].
  pose proof (pt_basis_tensor D r rows ids crows cids n P cin cout hidden act a axis bias w w1 b1 w2 b2 _ _ basis Hrs (activation_name _ _ Ha) Eb) as Tb.
  destruct Hdev as [_ _ Hba _ _].
  apply (projection_step bactive D r rows ids crows cids g pout n basis _ hidden cin wf); auto.
  - apply ttab_tensor.
  - exists out. split; [|exact HPost]. rewrite E. cbn [bind]. rewrite layer_output_table, <- Ho. f_equal. unfold table.
    apply map_ext_in. intros i Hin. apply in_seq in Hin.
    apply map_ext. intros o. unfold pt_formula, weighted_sum. apply sum_over_ext. intros c _. apply sum_over_ext. intros h _.
    f_equal. apply sum_over_ext. intros p Hp. cbn [fst snd]. fold dens.
    pose proof (ratio_pos D ltac:(lia)) as Rp.
    assert (Hpos : forall j, In j (near_points D r rows ids crows cids i) -> (0 < dens j)%R).
    { intros j Hj. apply density_pos.
      - apply repeat_length.
      - apply Forall_forall. intros x Hx. apply repeat_spec in Hx. now subst.
      - now rewrite nth_repeat_lt by lia.
      - unfold near_points in Hj. apply filter_In in Hj as [Hj _]. apply in_seq in Hj. lia. }
    assert (Hne' : near_points D r rows ids crows cids i <> []) by (intros E0; rewrite E0 in Hp; exact Hp).
    destruct (Hmx i ltac:(lia) Hne') as [M1 M2].
    assert (Em : red_max (map (fun p => (ratio ^ D * dens p)%R) (near_points D r rows ids crows cids i)) = (ratio ^ D * mx i)%R).
    { apply (max_unique (map (fun p => (ratio ^ D * dens p)%R) (near_points D r rows ids crows cids i))).
      - apply red_max_ok.
        + intros E0. apply map_eq_nil in E0. auto.
        + apply Forall_map, Forall_forall. intros j Hj. apply Rle_trans with 0%R.
          * unfold rlowest. assert (0 <= Q2R flt_max)%R; [|lra]. replace 0%R with (Q2R 0) by (unfold Q2R; cbn; lra).
            apply Qle_Rle. unfold flt_max. vm_compute. discriminate.
          * apply Rlt_le, Rmult_lt_0_compat; [exact Rp|now apply Hpos].
      - split.
        + apply in_map_iff in M1. destruct M1 as (j & Ej & Hj). apply in_map_iff. exists j. split; [now rewrite <- Ej|exact Hj].
        + apply Forall_map. rewrite Forall_map in M2. eapply Forall_impl; [|exact M2]. cbv beta. intros j Hj. apply Rmult_le_compat_l; lra. }
    assert (Hm0 : (0 < mx i)%R).
    { apply in_map_iff in M1. destruct M1 as (j & Ej & Hj). rewrite <- Ej. now apply Hpos. }
    f_equal. f_equal. f_equal. apply sum_over_ext. intros k _. f_equal. f_equal. f_equal.
    unfold dens in Em |- *. rewrite Em. field. split; lra.
Qed.

(** C55, PointConv: the formula of C34, also for a single output point, with
    which the fallback fails; the number of hidden units must be 8, 16, 32 or
    64. *)
Lemma C55_pointconv_partial_proof :
  forall active pactive bactive warp time eps D r rows ids pin crows cids pout cin cout hidden act a axis bias w w1 b1 w2 b2 feats F
         bandwidth mx return_sorted return_padded,
    device_ok active pactive bactive warp ->
    cuda_workable (scan_limit active warp) eps D r rows ids pin crows cids pout -> length ids <= scan_limit active warp ->
    SpecGpuBasis.supported hidden cin -> activation act a -> given feats pin cin F -> (0 < bandwidth)%R ->
    let dens := density D (repeat bandwidth D) (repeat r D) rows ids in
    (forall i, i < length cids -> near_points D r rows ids crows cids i <> [] ->
       is_max (map dens (near_points D r rows ids crows cids i)) (mx i)) ->
    forall out,
      returned pout return_sorted return_padded cout (table (length cids) cout
        (pt_formula D r rows ids crows cids F cin hidden a axis bias w w1 b1 w2 b2 (fun p _ => dens p) mx)) = Ok out ->
      pointconv_gpu active pactive bactive warp time eps (mk_pointconv cin cout D hidden act axis bias w w1 b1 w2 b2)
        feats pin pout r None bandwidth return_sorted return_padded (fun o => o = out).
Proof. intros. eapply pointconv_runs; eauto. Qed.

(** KPConv, for every postcondition. *)
Lemma kpconv_runs :
  forall active pactive bactive warp time eps D r rows ids pin crows cids pout cin cout K deformable interpolation wt kernel_points w wo
         spherical layer feats F influence return_sorted return_padded (Post : feat -> kpstate -> Prop),
    device_ok active pactive bactive warp ->
    cuda_workable (scan_limit active warp) eps D r rows ids pin crows cids pout ->
    mk_kpconv cin cout K D deformable interpolation
      (Some (ttab [K; D] (fun idx => match idx with [k; d] => kernel_points k d | _ => 0%R end))) spherical w wo = Ok layer ->
    0 < cin /\ (cin < 8 \/ cin mod 8 = 0) -> 0 < K <= 64 -> weighting interpolation wt -> given feats pin cin F ->
    let sigma := match influence with None => 1%R | Some s => (s / Q2R r)%R end in
    let start := fun (_ k d : nat) => (kernel_points k d * (3 / 4))%R in
    let conv := kp_formula D r rows ids crows cids F cin K in
    let offset := fun i k d => conv wo (fun v => wt v sigma) start r i (k * D + d) in
    let positions := fun i k d => if deformable then (start i k d + offset i k d)%R else start i k d in
    forall out,
      returned pout return_sorted return_padded cout (table (length cids) cout (conv w (fun v => wt v sigma) positions r)) = Ok out ->
      (forall state,
        regularization_loss GPU layer state =
          (if deformable then
            Ok (sum_over (seq 0 (length cids)) (fun i => sum_over (seq 0 K) (fun k =>
                  fold_right Rmin (Q2R flt_max) (map (fun p =>
                    (norm D (fun d => delta rows crows p i d / Q2R r - positions i k d) / sigma) ^ 2)
                    (near_points D r rows ids crows cids i)))) +
                sum_over (seq 0 (length cids)) (fun i => sum_over (seq 0 K) (fun k => sum_over (seq 0 K) (fun k' =>
                  if k =? k' then 0 else wt (norm D (fun d => positions i k' d - positions i k d)) sigma))))%R
          else Err AttributeError) ->
        Post out state) ->
      kpconv_gpu active bactive warp time eps layer feats pin pout r None influence return_sorted return_padded Post.
Proof.
  intros active pactive bactive warp time eps D r rows ids pin crows cids pout cin cout K deformable interpolation wt kernel_points w wo
    spherical layer feats F influence srt pad Post Hdev W El Hcin HK Hwt Hg sigma start conv offset positions out Ho HPost.
  pose proof W as [(B & Hci & _) (ceps & CB & Hco) HD _ Hr _ (Hcne & _)].
  pose proof (cloud_is _ _ _ _ _ _ _ Hci) as Hi. pose proof (cloud_is _ _ _ _ _ _ _ Hco) as Hio.
  unfold mk_kpconv in El. rewrite (weighting_name _ _ Hwt) in El. cbn [bind] in El. rewrite andb_false_r in El. cbn [bind] in El.
  apply ok_inj in El. subst layer.
  set (layer := KPConv cin cout K D wt
     (tmap (fun x => (x * (3 / 4))%R) (ttab [K; D] (fun idx => match idx with [k; d] => kernel_points k d | _ => 0%R end)))
     (if deformable then Some (ttab [K * cin; K * D] wo) else None) (ttab [K * cin; cout] w)).
  unfold kpconv_gpu. eexists. split; [exact (given_flat _ _ _ _ Hg)|]. cbv zeta. fold sigma. change (kp_dims layer) with D.
  rewrite (ic_pts _ _ _ _ _ _ _ Hi), (ic_len _ _ _ _ _ _ _ Hi), (ic_pts _ _ _ _ _ _ _ Hio), (ic_len _ _ _ _ _ _ _ Hio).
  apply (layer_nbh_gpu_ok active pactive bactive warp time eps Hdev D r rows ids pin crows cids pout W). intros n (g & Hn) _. cbn [dn].
  pose proof (cn_pairs _ _ _ _ _ _ _ _ _ Hn) as P.
  eexists. split; [exact (scaled_diffs_pairs D r r rows ids crows cids n pin pout P (ic_pts _ _ _ _ _ _ _ Hi) (ic_dim _ _ _ _ _ _ _ Hi) (ic_len _ _ _ _ _ _ _ Hi)
    (ic_pts _ _ _ _ _ _ _ Hio) (ic_dim _ _ _ _ _ _ _ Hio) (ic_len _ _ _ _ _ _ _ Hio))|].
  destruct (kp_core D r rows ids crows cids n P cin cout K deformable wt kernel_points w wo F r sigma ltac:(lia) ltac:(lia))
    as (offs & d & o & E1 & E2 & E3 & E4 & E5 & E6).
  cbv zeta in E1, E2, E3, E4, E5, E6. fold layer in E1, E2, E3.
  assert (Hrest : step (kp_dists layer (ttab [length (norig n); D] (fun idx => match idx with
      | [m; d] => let q := nth m (norig n) (0, 0) in (delta rows crows (fst q) (snd q) d / Q2R r)%R | _ => 0%R end))
      (match offs with Some o => Some (snd o) | None => None end)) (fun d =>
    kp_aggregate_gpu bactive layer d sigma n (ttab [length ids; cin] (fun idx => match idx with [i; j] => fval F i j | _ => 0%R end)) (kp_w layer) (fun o =>
    step (layer_output o pout srt pad) (fun o =>
      Post o (KPState sigma (length cids) d (norig n) (match offs with Some o => Some (fst o) | None => None end)))))).
  { exists d. split; [exact E2|]. rewrite E5 in E3 |- *.
    eapply (kp_aggregate_step active pactive bactive warp eps Hdev D r rows ids pin crows cids pout W g n layer); [exact Hn|exact HK|exact Hcin|exact E3|].
    exists out. split; [rewrite E4, layer_output_table; exact Ho|]. apply HPost.
    rewrite E6. apply (kp_loss D r rows ids crows cids n P cin cout K deformable wt kernel_points w wo F r sigma _ (length cids) eq_refl eq_refl). }
  unfold kernel_offsets_gpu. revert E1. case_eq (kp_deform layer).
  - intros wo' Ed E1. apply bind_ok in E1. destruct E1 as (off & E1 & E1'). apply ok_inj in E1'. subst offs.
    unfold kernel_offsets in E1. apply bind_ok in E1. destruct E1 as (d0 & Ed0 & E1). apply bind_ok in E1. destruct E1 as (o0 & Eo0 & E1).
    exists d0. split; [exact Ed0|].
    rewrite (kp_dists_ok n layer (fun k d => (kernel_points k d * (3 / 4))%R)
       (kp_pts D cin cout K deformable wt kernel_points w wo) _ (fun q d => (delta rows crows (fst q) (snd q) d / Q2R r)%R)) in Ed0 by (intros; reflexivity).
    apply ok_inj in Ed0. rewrite Ed0 in Eo0 |- *.
    eapply (kp_aggregate_step active pactive bactive warp eps Hdev D r rows ids pin crows cids pout W g n layer); [exact Hn|exact HK|exact Hcin|exact Eo0|].
    exists off. split; [exact E1|]. exact Hrest.
  - intros Ed E1. apply ok_inj in E1. subst offs. exact Hrest.
Qed.

(** C55, KPConv: the formula and the regularization loss of C34, for up to 64
    kernel points. *)
Lemma C55_kpconv_partial_proof :
  forall active pactive bactive warp time eps D r rows ids pin crows cids pout cin cout K deformable interpolation wt kernel_points w wo
         spherical layer feats F influence return_sorted return_padded,
    device_ok active pactive bactive warp ->
    cuda_workable (scan_limit active warp) eps D r rows ids pin crows cids pout ->
    mk_kpconv cin cout K D deformable interpolation
      (Some (ttab [K; D] (fun idx => match idx with [k; d] => kernel_points k d | _ => 0%R end))) spherical w wo = Ok layer ->
    0 < cin /\ (cin < 8 \/ cin mod 8 = 0) -> 0 < K <= 64 -> weighting interpolation wt -> given feats pin cin F ->
    let sigma := match influence with None => 1%R | Some s => (s / Q2R r)%R end in
    let start := fun (_ k d : nat) => (kernel_points k d * (3 / 4))%R in
    let conv := kp_formula D r rows ids crows cids F cin K in
    let offset := fun i k d => conv wo (fun v => wt v sigma) start r i (k * D + d) in
    let positions := fun i k d => if deformable then (start i k d + offset i k d)%R else start i k d in
    forall out,
      returned pout return_sorted return_padded cout (table (length cids) cout (conv w (fun v => wt v sigma) positions r)) = Ok out ->
      kpconv_gpu active bactive warp time eps layer feats pin pout r None influence return_sorted return_padded (fun o state =>
        o = out /\
        regularization_loss GPU layer state =
          if deformable then
            Ok (sum_over (seq 0 (length cids)) (fun i => sum_over (seq 0 K) (fun k =>
                  fold_right Rmin (Q2R flt_max) (map (fun p =>
                    (norm D (fun d => delta rows crows p i d / Q2R r - positions i k d) / sigma) ^ 2)
                    (near_points D r rows ids crows cids i)))) +
                sum_over (seq 0 (length cids)) (fun i => sum_over (seq 0 K) (fun k => sum_over (seq 0 K) (fun k' =>
                  if k =? k' then 0 else wt (norm D (fun d => positions i k' d - positions i k d)) sigma))))%R
          else Err AttributeError).
Proof.
  intros. eapply kpconv_runs; eauto.
Qed.

(** C55. With a number of input features above 8 that is no multiple of 8, for
    which the fallback works (C34), every convolution with the CUDA operations
    raises an exception, whatever the neighborhood. *)
Lemma C55_features_refuted_proof :
  forall active pactive bactive warp time eps feats pin pout r x v cin F return_sorted return_padded,
    given feats pin cin F -> 8 < cin -> cin mod 8 <> 0 -> dpdf x = Some v ->
    (forall layer bandwidth P,
       ~ mcconv_gpu active pactive bactive warp time eps layer feats pin pout r (Some x) bandwidth return_sorted return_padded P) /\
    (forall layer bandwidth P,
       ~ pointconv_gpu active pactive bactive warp time eps layer feats pin pout r (Some x) bandwidth return_sorted return_padded P) /\
    (forall layer influence P,
       ~ kpconv_gpu active bactive warp time eps layer feats pin pout r (Some x) influence return_sorted return_padded P).
Proof.
  intros active pactive bactive warp time eps feats pin pout r x v cin F srt pad Hg H8 Hm Ev.
  assert (Hrej : forall basis n f P, flat_features feats pin = Ok f -> ~ basis_proj_wrapper bactive basis f n P).
  { intros basis n f P Ef (M & K & N & C & _ & Ef' & _ & HC & _). rewrite (given_flat _ _ _ _ Hg) in Ef. apply ok_inj in Ef. subst f.
    cbn [ttab tshape] in Ef'. injection Ef' as _ <-. unfold accepted_features, multiple_in_features in HC.
    apply andb_prop in HC. destruct HC as (_ & HC). apply orb_prop in HC. destruct HC as [HC|HC].
    - apply Nat.ltb_lt in HC. lia.
    - apply Nat.eqb_eq in HC. contradiction. }
  split; [|split].
  - intros layer bw P (_ & f & Ef & H). unfold layer_nbh_gpu, get_pdf_gpu in H. rewrite Ev in H. destruct H as (b & _ & H). exact (Hrej _ _ _ _ Ef H).
  - intros layer bw P (f & Ef & H). unfold layer_nbh_gpu, get_pdf_gpu in H. rewrite Ev in H. destruct H as (b & _ & H). exact (Hrej _ _ _ _ Ef H).
  - intros layer infl P (f & Ef & H). cbv zeta in H. unfold layer_nbh_gpu in H. destruct H as (i & _ & H). unfold kernel_offsets_gpu in H.
    destruct (kp_deform layer) as [wo|].
    + destruct H as (d & _ & b & _ & H). exact (Hrej _ _ _ _ Ef H).
    + destruct H as (d & _ & b & _ & H). exact (Hrej _ _ _ _ Ef H).
Qed.

(** ** Concrete cases *)
Definition ex55_active : kernel -> nat := fun _ => 2.
Lemma ex55_device : device_ok ex55_active 3 5 32.
Proof. constructor; [intros k; discriminate|lia|lia|lia|exists 8; reflexivity]. Qed.
Lemma ex55_workable : cuda_workable (scan_limit ex55_active 32) (1#1000) 2 1 exN_rows exN_ids (seg 2 exN_rows exN_ids 2) exN_rows exN_ids (seg 2 exN_rows exN_ids 2).
Proof.
  destruct exN_self as [(B & H1 & H0 & H2) Ho H3 H4 H5 (H6 & _) H7]. constructor; [exists B; auto|exact Ho|lia|left; lia|exact H4|exact H6|].
  split; [exact H7|]. cbn [length exN_ids]. unfold scan_limit, ex55_active. pose proof (Nat.pow_nonzero 2 8 ltac:(lia)). cbn. lia.
Qed.
(** One center only. *)
Lemma ex55_single : cuda_workable (scan_limit ex55_active 32) (1#1000) 2 1 exN_rows exN_ids (seg 2 exN_rows exN_ids 2) [[1#2;1#2]] [0] (seg 2 [[1#2;1#2]] [0] 1).
Proof.
  destruct C34_pointconv_single_refuted_ex_proof as ([(B & H1 & H0 & H2) Ho H3 H4 H5 (H6 & _) H7] & _). constructor; [exists B; auto|exact Ho|lia|left; lia|exact H4|exact H6|].
  split; [exact H7|]. cbn. lia.
Qed.
Example C55_local_pooling_partial_ex_proof :
  device_ok ex55_active 3 5 32 /\
  cuda_workable (scan_limit ex55_active 32) (1#1000) 2 1 exN_rows exN_ids (seg 2 exN_rows exN_ids 2) exN_rows exN_ids (seg 2 exN_rows exN_ids 2) /\
  map (near_points 2 1 exN_rows exN_ids exN_rows exN_ids) (seq 0 6) = [[0;1];[0;1];[2];[3];[4;5];[4;5]] /\
  given (Feat 2 (inr exN_F)) (seg 2 exN_rows exN_ids 2) 2 exN_F /\
  forall f, returned (seg 2 exN_rows exN_ids 2) false false 2 (table 6 2 f) = Ok (Feat 2 (inr (table 6 2 f))).
Proof.
  split; [exact ex55_device|]. split; [exact ex55_workable|]. split; [vm_compute; reflexivity|]. split; [exact exN_given|].
  intros f. reflexivity.
Qed.
Example C55_mcconv_partial_ex_proof :
  exists layer,
    device_ok ex55_active 3 5 32 /\
    cuda_workable (scan_limit ex55_active 32) (1#1000) 2 1 exN_rows exN_ids (seg 2 exN_rows exN_ids 2) exN_rows exN_ids (seg 2 exN_rows exN_ids 2) /\
    length exN_ids <= scan_limit ex55_active 32 /\
    mk_mcconv 2 4 2 2 [3;8] "ReLU" (fun k idx => INR (k + hd 0 idx)) (fun _ _ => 0%R) (fun idx => INR (hd 0 idx)) = Ok layer /\
    activation "ReLU" (fun x => Rmax 0 x) /\ SpecGpuBasis.supported (last [3;8] 0 * 2) 2 /\
    given (Feat 2 (inr exN_F)) (seg 2 exN_rows exN_ids 2) 2 exN_F /\
    forall f, returned (seg 2 exN_rows exN_ids 2) true false 4 (table 6 4 f) = Ok (Feat 4 (inr (table 6 4 f))).
Proof.
  eexists. split; [exact ex55_device|]. split; [exact ex55_workable|]. split; [cbn; lia|]. split; [reflexivity|].
  split; [left; split; [apply means_lower; [repeat constructor|now left]|reflexivity]|].
  split; [split; [right; now left|]; split; [lia|left; lia]|]. split; [exact exN_given|]. intros f. reflexivity.
Qed.
Example C55_pointconv_partial_ex_proof :
  device_ok ex55_active 3 5 32 /\
  cuda_workable (scan_limit ex55_active 32) (1#1000) 2 1 exN_rows exN_ids (seg 2 exN_rows exN_ids 2) [[1#2;1#2]] [0] (seg 2 [[1#2;1#2]] [0] 1) /\
  length exN_ids <= scan_limit ex55_active 32 /\ SpecGpuBasis.supported 16 2 /\ activation "elu" (fun x => if Rlt_dec 0 x then x else exp x - 1)%R /\
  given (Feat 2 (inr exN_F)) (seg 2 exN_rows exN_ids 2) 2 exN_F /\
  near_points 2 1 exN_rows exN_ids [[1#2;1#2]] [0] 0 = [0;1] /\
  (exists mx, is_max (map (density 2 (repeat (1/5)%R 2) (repeat (1#1) 2) exN_rows exN_ids) (near_points 2 1 exN_rows exN_ids [[1#2;1#2]] [0] 0)) mx) /\
  forall f, returned (seg 2 [[1#2;1#2]] [0] 1) false false 3 (table 1 3 f) = Ok (Feat 3 (inr (table 1 3 f))).
Proof.
  split; [exact ex55_device|]. split; [exact ex55_single|]. split; [cbn; lia|].
  split; [split; [right; now left|]; split; [lia|left; lia]|].
  split; [right; right; split; [apply means_lower; [repeat constructor|now left]|reflexivity]|]. split; [exact exN_given|].
  assert (E : near_points 2 1 exN_rows exN_ids [[1#2;1#2]] [0] 0 = [0;1]) by (vm_compute; reflexivity).
  split; [exact E|]. split; [|intros f; reflexivity]. rewrite E. cbn [map].
  generalize (density 2 (repeat (1/5)%R 2) (repeat (1#1) 2) exN_rows exN_ids 0), (density 2 (repeat (1/5)%R 2) (repeat (1#1) 2) exN_rows exN_ids 1).
  intros a b. destruct (Rle_dec a b) as [H|H].
  - exists b. split; [right; now left|]. constructor; [exact H|]. constructor; [apply Rle_refl|constructor].
  - exists a. split; [now left|]. constructor; [apply Rle_refl|]. constructor; [lra|constructor].
Qed.
Example C55_kpconv_partial_ex_proof :
  exists layer,
    device_ok ex55_active 3 5 32 /\
    cuda_workable (scan_limit ex55_active 32) (1#1000) 2 1 exN_rows exN_ids (seg 2 exN_rows exN_ids 2) exN_rows exN_ids (seg 2 exN_rows exN_ids 2) /\
    mk_kpconv 2 4 9 2 true "linear" (Some (ttab [9; 2] (fun idx => match idx with [k; d] => (fun k d => INR (k + d)) k d | _ => 0%R end)))
      (fun _ => Err ValueError) (fun idx => INR (hd 0 idx)) (fun idx => INR (hd 0 idx)) = Ok layer /\
    weighting "linear" (fun v s => Rmax 0 (1 - v / s))%R /\ given (Feat 2 (inr exN_F)) (seg 2 exN_rows exN_ids 2) 2 exN_F.
Proof.
  eexists. split; [exact ex55_device|]. split; [exact ex55_workable|]. split; [reflexivity|]. split; [left; split; reflexivity|]. exact exN_given.
Qed.
(** Nine features: the fallback gives a result. *)
Example C55_features_refuted_ex_proof :
  let F := repeat (repeat 1%R 9) 6 in
  given (Feat 9 (inr F)) (seg 2 exN_rows exN_ids 2) 9 F /\ 9 mod 8 <> 0 /\
  exists layer state out,
    kpconv_call GPU (1#1000) (find_neighbors_tf GPU) layer (Feat 9 (inr F)) (seg 2 exN_rows exN_ids 2) (seg 2 exN_rows exN_ids 2) 1 None None false false = Ok (out, state).
Proof.
  assert (Hg : given (Feat 9 (inr (repeat (repeat 1%R 9) 6))) (seg 2 exN_rows exN_ids 2) 9 (repeat (repeat 1%R 9) 6)) by (split; [reflexivity|]; split; reflexivity).
  cbv zeta. split; [exact Hg|]. split; [vm_compute; discriminate|].
  assert (El : exists layer, mk_kpconv 9 4 9 2 false "linear" (Some (ttab [9; 2] (fun idx => match idx with [k; d] => (fun k d => INR (k + d)) k d | _ => 0%R end)))
      (fun _ => Err ValueError) (fun idx => INR (hd 0 idx)) (fun idx => INR (hd 0 idx)) = Ok layer) by (eexists; reflexivity).
  destruct El as (layer & El). exists layer.
  destruct (C34_kpconv_partial_proof _ _ _ _ _ _ _ _ _ 9 4 9 false "linear" (fun v s => Rmax 0 (1 - v / s))%R (fun k d => INR (k + d)) _ _ _ layer _ _ None false false
    exN_self El ltac:(lia) ltac:(lia) (or_introl (conj eq_refl eq_refl)) Hg) as (state & E & _).
  exists state. eexists. rewrite E. reflexivity.
Qed.
