(** Facts about the residual networks with the CUDA operations. *)
From Coq Require Import String List Arith ZArith NArith QArith Qround Qreals Reals Lia Lra Bool Permutation.
From Verif Require Import GpuBasis GpuPdf Cuda GpuGrid Tensor TensorFacts Spec SpecText TextFacts PointCloud SpecCloud History PointCloudFacts QFacts Grid SpecGrid GridFacts Neighbors SpecNeighbors NeighborFacts NeighborProofs Neighborhood NeighborhoodFacts
  SamplingFacts SamplingProofs Pdf SpecPdf PdfFacts PdfProofs RTensor RTensorFacts Layers SpecLayers LayerFacts LayerLink LayerProofs ConvProofs
  CudaFacts GpuGridFacts GpuNeighbors GpuNeighborFacts GpuSampleFacts
  GpuBasisFacts SpecGpuBasis GpuBasisProofs SpecGpuPdf GpuPdfFacts GpuPdfProofs
  CudaLayers SpecCudaLayers CudaLayerFacts CudaDensityFacts CudaConvFacts CudaLayerProofs Blocks SpecBlocks BlockFacts BlockProofs CudaBlocks SpecCudaBlocks.
Import ListNotations.
Local Open Scope nat_scope.

(** The order in which the grid sorts the points. *)
Definition gpu_order (eps : Q) (D : nat) (r : Q) (rows : list point) (ids : list nat) (B : nat) : list nat :=
  let a := AABB (map (lo_of eps D rows ids) (seq 0 B)) (map (hi_of eps D rows ids) (seq 0 B)) None in
  let nc := num_cells D a (repeat r D) in
  argsort_desc (map (fun i => Z.of_nat (nth i ids 0%nat) * zprod nc +
      radix nc (map (gcell eps D rows ids (repeat r D) nc i) (seq 0 D)))%Z (seq 0 (length ids))).
Lemma gpu_order_ok eps D r rows ids B g : is_gpu_grid eps D rows ids B (repeat r D) g -> gsidx g = gpu_order eps D r rows ids B.
Proof.
  intros G. rewrite (gg_sidx _ _ _ _ _ _ _ G), (gg_keys _ _ _ _ _ _ _ G).
  assert (E : gnc g = num_cells D (AABB (map (lo_of eps D rows ids) (seq 0 B)) (map (hi_of eps D rows ids) (seq 0 B)) None) (repeat r D)).
  { rewrite (gg_nc _ _ _ _ _ _ _ G). unfold num_cells. cbn [amin amax]. now rewrite (gg_min _ _ _ _ _ _ _ G), (gg_max _ _ _ _ _ _ _ G). }
  rewrite E. reflexivity.
Qed.
Lemma gpu_order_perm eps D r rows ids B : Permutation (gpu_order eps D r rows ids B) (seq 0 (length ids)).
Proof.
  unfold gpu_order, argsort_desc. eapply Permutation_trans; [apply argsort_perm|]. now rewrite map_length, seq_length.
Qed.

Section Ready.
  Context (active : kernel -> nat) (pactive bactive warp : nat) (time : N) (eps : Q).
  Context (Hdev : device_ok active pactive bactive warp).
  Context (D : nat) (r : Q) (bw : R) (rows : list point) (ids : list nat) (crows : list point) (cids : list nat).
  Let dens := fun p => (density_factor D * density D (repeat bw D) (repeat r D) rows ids p)%R.

  Definition cready (x : dnbh) : Prop :=
    (exists g cp, cuda_nbh D r rows ids crows cids g cp (dn x)) /\
    let v := map (fun q => dens (fst q)) (norig (dn x)) in
    (dpdf x = Some v \/
     dpdf x = None /\ forall P : dnbh -> list R -> Prop, P (DNbh (dn x) (Some v)) v ->
       get_pdf_gpu active pactive warp time x (repeat bw D) KConstant false P).

  Lemma cready_pdf x (P : dnbh -> list R -> Prop) : cready x ->
    (forall y, cready y -> dn y = dn x -> dpdf y = Some (map (fun q => dens (fst q)) (norig (dn x))) -> P y (map (fun q => dens (fst q)) (norig (dn x)))) ->
    get_pdf_gpu active pactive warp time x (repeat bw D) KConstant false P.
  Proof.
    intros [Hn Hv] HP. cbv zeta in Hv. destruct Hv as [E|[E Hv]].
    - unfold get_pdf_gpu. rewrite E. apply HP; [|reflexivity|exact E]. split; [exact Hn|]. now left.
    - apply Hv. apply HP; [|reflexivity|reflexivity]. split; [exact Hn|]. now left.
  Qed.

  Context (orows : list point) (pin pout : pc).
  Context (Ein : pts pin = rows) (Din : dim pin = D) (Lin : length rows = length ids).
  Context (Eout : pts pout = orows) (Dout : dim pout = D) (Lout : length orows = length cids).
  Context (Hcne : cids <> []).

  Lemma mc_block_gpu cin cout mlps sizes act a w b fw l F r' x (P : dnbh -> ten -> Prop) :
    mk_mcconv cin cout D mlps sizes act w b fw = Ok l -> 0 < cout -> activation act a ->
    SpecGpuBasis.supported (last sizes 0 * mlps) cin -> matrix (length ids) cin F -> cready x ->
    (forall y, cready y -> P y (of_rows cout (table (length cids) cout
        (mc_formula_over (near_points D r rows ids crows cids) D rows orows F cin cout mlps sizes a w b fw r' dens)))) ->
    block_conv_gpu active pactive bactive warp time eps (LMC l) (of_rows cin F) pin pout r' x bw P.
  Proof using Hdev Ein Din Lin Eout Dout Lout Hcne.
    intros El Hc Ha Hs HF Hx HP. pose proof El as El'. apply mk_mcconv_inv in El'. destruct El' as (_ & _ & _ & _ & _ & _ & Eq).
    unfold block_conv_gpu. replace (mc_dims l) with D by now rewrite Eq.
    eexists. split; [exact (as_feat_of_rows (length ids) cin F HF)|].
    apply cready_pdf; [exact Hx|]. intros y Hy En Ey.
    unfold mcconv_gpu. replace (mc_in l) with cin by now rewrite Eq. replace (mc_dims l) with D by now rewrite Eq.
    split; [reflexivity|]. eexists. split.
    { exact (given_flat _ pin cin F (given_rows (length ids) cin F pin HF ltac:(rewrite Ein; exact Lin))). }
    cbn [layer_nbh_gpu]. unfold get_pdf_gpu. rewrite Ey, <- En. clear x Hx En Ey.
    destruct Hy as [(g & cp & Hn) Hv]. pose proof (cn_pairs _ _ _ _ _ _ _ _ _ Hn) as Pn.
    rewrite (scaled_moved D r rows ids crows cids orows pin pout Ein Din Lin Eout Dout Lout (dn y) r' Pn). cbn [bind].
    rewrite Ein, Lin.
    pose proof (monte_carlo_ok D r rows ids crows cids (dn y) Pn GPU cin cout D mlps sizes act a w b fw l
       (fun q d => (delta rows orows (fst q) (snd q) d / Q2R r')%R) (fun q => dens (fst q))
       (fun idx => match idx with [i; j] => fval F i j | _ => 0%R end)
       (fun idx => match idx with [m; d] => let q := nth m (norig (dn y)) (0, 0) in (delta rows orows (fst q) (snd q) d / Q2R r')%R | _ => 0%R end)
       El ltac:(lia) (activation_name _ _ Ha) ltac:(intros; reflexivity)) as E. cbv zeta in E.
    unfold monte_carlo_conv in E. apply bind_ok in E. destruct E as (basis & Eb & E). apply bind_ok in E. destruct E as (wf & Ew & E).
    exists basis. split; [exact Eb|].
    pose proof (mc_basis_tensor _ _ _ _ _ _ _ _ _ _ _ (dn y) _ _ _ El (activation_name _ _ Ha) Eb) as Tb.
    pose proof (do_bactive _ _ _ _ Hdev) as Hba.
    apply (projection_step bactive D r rows ids crows cids g cp (dn y) basis _ (last sizes 0 * mlps) cin wf); auto.
    - apply ttab_tensor.
    - eexists. split; [rewrite E; cbn [bind]; rewrite layer_output_table; reflexivity|].
      eexists. split; [reflexivity|]. cbn [frows fch].
      apply HP. split; [now exists g, cp|exact Hv].
  Qed.

  Lemma pt_block_gpu cin cout hidden act a axis bias w w1 b1 w2 b2 mx F r' x (P : dnbh -> ten -> Prop) :
    SpecGpuBasis.supported hidden cin -> activation act a -> matrix (length ids) cin F ->
    2 <= D <= 6 -> (0 < r)%Q -> (0 < bw)%R ->
    largest (near_points D r rows ids crows cids) (length cids) dens mx -> cready x ->
    (forall y, cready y -> P y (of_rows cout (table (length cids) cout
        (pt_formula_over (near_points D r rows ids crows cids) D rows orows F cin hidden a axis bias w w1 b1 w2 b2 dens mx)))) ->
    block_conv_gpu active pactive bactive warp time eps (LPT (mk_pointconv cin cout D hidden act axis bias w w1 b1 w2 b2)) (of_rows cin F) pin pout r' x bw P.
  Proof using Hdev Ein Din Lin Eout Dout Lout Hcne.
    intros Hs Ha HF HD Hr Hb Hmx Hx HP. set (l := mk_pointconv cin cout D hidden act axis bias w w1 b1 w2 b2).
    assert (Hcin : cin <> 0) by (destruct Hs as (_ & ? & _); lia).
    assert (Hhid : hidden <> 0) by (destruct Hs as (Hk & _); intros ->; cbn in Hk; intuition discriminate).
    unfold block_conv_gpu. change (pt_dims l) with D.
    eexists. split; [exact (as_feat_of_rows (length ids) cin F HF)|].
    apply cready_pdf; [exact Hx|]. intros y Hy En Ey.
    unfold pointconv_gpu. change (pt_dims l) with D. eexists. split.
    { exact (given_flat _ pin cin F (given_rows (length ids) cin F pin HF ltac:(rewrite Ein; exact Lin))). }
    cbn [layer_nbh_gpu]. unfold get_pdf_gpu. rewrite Ey, <- En. clear x Hx En Ey.
    destruct Hy as [(g & cp & Hn) Hv]. pose proof (cn_pairs _ _ _ _ _ _ _ _ _ Hn) as Pn. pose proof (cn_shape _ _ _ _ _ _ _ _ _ Hn) as Hrs.
    rewrite (diffs_moved D r rows ids crows cids orows pin pout Ein Din Lin Eout Dout Lout (dn y) Pn). cbn [bind].
    rewrite Ein, Lin. unfold l.
    pose proof (point_conv_ok D r rows ids crows cids (dn y) Pn GPU cin cout hidden act a axis bias w w1 b1 w2 b2
       (fun q d => delta rows orows (fst q) (snd q) d) (fun q => dens (fst q))
       (fun idx => match idx with [i; j] => fval F i j | _ => 0%R end)
       (fun idx => match idx with [m; d] => let q := nth m (norig (dn y)) (0, 0) in delta rows orows (fst q) (snd q) d | _ => 0%R end)
       Hrs (activation_name _ _ Ha) Hcin Hhid ltac:(intros; reflexivity)) as E.
    unfold point_conv in E. apply bind_ok in E. destruct E as (basis & Eb & E). apply bind_ok in E. destruct E as (wf & Ew & E).
    exists basis. split; [exact Eb|].
    pose proof (pt_basis_tensor D r rows ids crows cids (dn y) Pn cin cout hidden act a axis bias w w1 b1 w2 b2 _ _ basis Hrs (activation_name _ _ Ha) Eb) as Tb.
    pose proof (do_bactive _ _ _ _ Hdev) as Hba.
    apply (projection_step bactive D r rows ids crows cids g cp (dn y) basis _ hidden cin wf); auto.
    - apply ttab_tensor.
    - eexists. split; [rewrite E; cbn [bind]; rewrite layer_output_table; reflexivity|].
      eexists. split; [reflexivity|]. cbn [frows fch].
      match goal with |- P y (of_rows cout ?t) => replace t with (table (length cids) cout
        (pt_formula_over (near_points D r rows ids crows cids) D rows orows F cin hidden a axis bias w w1 b1 w2 b2 dens mx)); [apply HP; split; [now exists g, cp|exact Hv]|] end.
      unfold table. apply map_ext_in. intros i Hin. apply in_seq in Hin.
      apply map_ext. intros o. unfold pt_formula_over, weighted_sum. apply sum_over_ext. intros c _. apply sum_over_ext. intros h _.
      f_equal. apply sum_over_ext. intros p Hp. cbn [fst snd].
      assert (Em : red_max (map (fun p => dens p) (near_points D r rows ids crows cids i)) = mx i).
      { assert (Hne' : near_points D r rows ids crows cids i <> []) by (intros E0; rewrite E0 in Hp; exact Hp).
        eapply max_unique; [|apply Hmx; [lia|exact Hne']]. change (map dens) with (map (fun p => dens p)). apply red_max_ok.
        - intros E0. apply map_eq_nil in E0. auto.
        - apply Forall_map, Forall_forall. intros j Hj. apply Rle_trans with 0%R.
          + unfold rlowest. assert (0 <= Q2R flt_max)%R; [|lra]. replace 0%R with (Q2R 0) by (unfold Q2R; cbn; lra).
            apply Qle_Rle. unfold flt_max. vm_compute. discriminate.
          + apply Rlt_le, Rmult_lt_0_compat; [exact (ratio_pos D ltac:(lia))|]. apply density_pos.
            * apply repeat_length.
            * apply Forall_forall. intros z Hz. apply repeat_spec in Hz. now subst.
            * now rewrite nth_repeat_lt by lia.
            * unfold near_points in Hj. apply filter_In in Hj as [Hj _]. apply in_seq in Hj. lia. }
      rewrite Em. reflexivity.
  Qed.
End Ready.

(** Both kinds of convolutions. *)
Lemma layer_block_gpu active pactive bactive warp time eps D r bw rows ids crows cids orows pin pout t cin cout args a l mx F r' x (P : dnbh -> ten -> Prop) :
  device_ok active pactive bactive warp ->
  pts pin = rows -> dim pin = D -> length rows = length ids ->
  pts pout = orows -> dim pout = D -> length orows = length cids -> cids <> [] ->
  new_layer cin cout D t args = Ok l -> 0 < cout -> cuda_applicable cin args a ->
  matrix (length ids) cin F -> 2 <= D <= 6 -> (0 < r)%Q -> (0 < bw)%R ->
  let dens := fun p => (density_factor D * density D (repeat bw D) (repeat r D) rows ids p)%R in
  largest (near_points D r rows ids crows cids) (length cids) dens mx ->
  cready active pactive warp time D r bw rows ids crows cids x ->
  let out := layer_formula (near_points D r rows ids crows cids) D rows orows r' dens mx (length cids) cin cout args a F in
  matrix (length cids) cout out /\
  ((forall y, cready active pactive warp time D r bw rows ids crows cids y -> P y (of_rows cout out)) ->
   block_conv_gpu active pactive bactive warp time eps l (of_rows cin F) pin pout r' x bw P).
Proof.
  intros Hdev E1 E2 E3 E4 E5 E6 Hcne El Hcout Ha HF HD Hr Hb dens Hmx Hx out. unfold out, layer_formula.
  destruct t, args; cbn [new_layer cuda_applicable] in El, Ha; try discriminate; try contradiction.
  - destruct (mk_mcconv cin cout D mlps sizes act w b fw) as [l'|] eqn:El'; [|discriminate]. injection El as <-. destruct Ha as (Ha & Hs).
    split; [apply matrix_table|]. intros HP.
    exact (mc_block_gpu active pactive bactive warp time eps Hdev D r bw rows ids crows cids orows pin pout E1 E2 E3 E4 E5 E6 Hcne
      cin cout mlps sizes act a w b fw l' F r' x P El' Hcout Ha Hs HF Hx HP).
  - injection El as <-. destruct Ha as (Ha & Hs). split; [apply matrix_table|]. intros HP.
    exact (pt_block_gpu active pactive bactive warp time eps Hdev D r bw rows ids crows cids orows pin pout E1 E2 E3 E4 E5 E6 Hcne
      cin cout hidden act a axis bias w w1 b1 w2 b2 mx F r' x P Hs Ha HF HD Hr Hb Hmx Hx HP).
Qed.

(** * The loops *)
Section Loops.
  Context (active : kernel -> nat) (pactive bactive warp : nat) (time : N) (eps : Q).

  Lemma resnet_loop_gpu_ok (inv : dnbh -> Prop) conv bn act p r bw C t args projection pw pb N (P : ten -> Prop) :
    (forall j, keeps_shape (bn j)) -> keeps_shape act -> length (pts p) = N ->
    (forall k l F x, new_layer C C (dim p) t (args k) = Ok l -> matrix N C F -> inv x -> matrix N C (conv k F) /\
       forall Q : dnbh -> ten -> Prop, (forall y, inv y -> Q y (of_rows C (conv k F))) ->
         block_conv_gpu active pactive bactive warp time eps l (of_rows C F) p p r x bw Q) ->
    forall n i bs x F,
    build (fun i => a <- new_layer C C (dim p) t (args (2 * i)) ;; b <- new_layer C C (dim p) t (args (2 * i + 1)) ;;
                    s <- mk_shortcut projection C pw pb i ;; Ok (a, b, s)) (seq i n) = Ok bs ->
    inv x -> matrix N C F ->
    let Y := fold_left (fun X k => mat_add N C (two_convolutions bn act conv k X) (shortcut projection N C pw pb k X)) (seq i n) F in
    (matrix N C Y -> P (of_rows C Y)) -> resnet_loop_gpu active pactive bactive warp time eps bn act p r bw i bs x (of_rows C F) P.
  Proof.
    intros Hbn Hact Hp Hconv n. induction n as [|n IH]; intros i bs x F Eb Hx HF Y HP.
    - cbn in Eb. injection Eb as <-. exact (HP HF).
    - apply build_cons in Eb as (b & rest & -> & Eb & Er).
      destruct (new_layer C C (dim p) t (args (2 * i))) as [l1|] eqn:E1; [|discriminate]. cbn [bind] in Eb.
      destruct (new_layer C C (dim p) t (args (2 * i + 1))) as [l2|] eqn:E2; [|discriminate]. cbn [bind] in Eb.
      destruct (mk_shortcut projection C pw pb i) as [s|] eqn:Es; [|discriminate]. injection Eb as <-.
      cbn [resnet_loop_gpu]. eexists. split; [exact (pre_ok bn act (2 * i) N C F HF)|].
      pose proof (preactivation_matrix bn act (2 * i) N C F Hbn Hact HF) as H1.
      destruct (Hconv (2 * i) l1 _ x E1 H1 Hx) as (H2 & HQ). apply HQ. clear HQ. intros x1 Hx1.
      eexists. split; [exact (pre_ok bn act (2 * i + 1) N C _ H2)|].
      pose proof (preactivation_matrix bn act (2 * i + 1) N C _ Hbn Hact H2) as H3.
      destruct (Hconv (2 * i + 1) l2 _ x1 E2 H3 Hx1) as (H4 & HQ). apply HQ. clear HQ. intros x2 Hx2.
      eexists. split.
      { rewrite (shortcut_ok projection N C pw pb i s F p Es HF Hp). cbn [bind].
        exact (add_rows N C _ _ H4 (shortcut_matrix projection N C pw pb i F HF)). }
      apply (IH (S i) rest x2 _ Er Hx2); [apply matrix_table|]. exact HP.
  Qed.

  Lemma spatial_loop_gpu_ok (inv0 inv1 inv2 : dnbh -> Prop) down middle up bn act p q r0 r1 r2 bw C t args projection pw pb N M (P : ten -> Prop) :
    (forall j, keeps_shape (bn j)) -> keeps_shape act -> length (pts p) = N ->
    (forall k l F x, new_layer C C (dim p) t (args (3 * k + 2)) = Ok l -> matrix N C F -> inv0 x -> matrix M C (down k F) /\
       forall Q : dnbh -> ten -> Prop, (forall y, inv0 y -> Q y (of_rows C (down k F))) ->
         block_conv_gpu active pactive bactive warp time eps l (of_rows C F) p q r0 x bw Q) ->
    (forall k l F x, new_layer C C (dim p) t (args (3 * k + 1)) = Ok l -> matrix M C F -> inv1 x -> matrix M C (middle k F) /\
       forall Q : dnbh -> ten -> Prop, (forall y, inv1 y -> Q y (of_rows C (middle k F))) ->
         block_conv_gpu active pactive bactive warp time eps l (of_rows C F) q q r1 x bw Q) ->
    (forall k l F x, new_layer C C (dim p) t (args (3 * k)) = Ok l -> matrix M C F -> inv2 x -> matrix N C (up k F) /\
       forall Q : dnbh -> ten -> Prop, (forall y, inv2 y -> Q y (of_rows C (up k F))) ->
         block_conv_gpu active pactive bactive warp time eps l (of_rows C F) q p r2 x bw Q) ->
    forall n i bs x0 x1 x2 F,
    build (fun i => u <- new_layer C C (dim p) t (args (3 * i)) ;; m <- new_layer C C (dim p) t (args (3 * i + 1)) ;;
                    d <- new_layer C C (dim p) t (args (3 * i + 2)) ;;
                    s <- mk_shortcut projection C pw pb i ;; Ok (u, m, d, s)) (seq i n) = Ok bs ->
    inv0 x0 -> inv1 x1 -> inv2 x2 -> matrix N C F ->
    let Y := fold_left (fun X k => mat_add N C (coarse_convolution bn act down middle up k X) (shortcut projection N C pw pb k X)) (seq i n) F in
    (matrix N C Y -> P (of_rows C Y)) ->
    spatial_loop_gpu active pactive bactive warp time eps bn act p q r0 r1 r2 bw i bs (x0, x1, x2) (of_rows C F) P.
  Proof.
    intros Hbn Hact Hp Hd Hm Hu n. induction n as [|n IH]; intros i bs x0 x1 x2 F Eb Hx0 Hx1 Hx2 HF Y HP.
    - cbn in Eb. injection Eb as <-. exact (HP HF).
    - apply build_cons in Eb as (b & rest & -> & Eb & Er).
      destruct (new_layer C C (dim p) t (args (3 * i))) as [lu|] eqn:E1; [|discriminate]. cbn [bind] in Eb.
      destruct (new_layer C C (dim p) t (args (3 * i + 1))) as [lm|] eqn:E2; [|discriminate]. cbn [bind] in Eb.
      destruct (new_layer C C (dim p) t (args (3 * i + 2))) as [ld|] eqn:E3; [|discriminate]. cbn [bind] in Eb.
      destruct (mk_shortcut projection C pw pb i) as [s|] eqn:Es; [|discriminate]. injection Eb as <-.
      cbn [spatial_loop_gpu]. eexists. split; [exact (pre_ok bn act (3 * i) N C F HF)|].
      pose proof (preactivation_matrix bn act (3 * i) N C F Hbn Hact HF) as H1.
      destruct (Hd i ld _ x0 E3 H1 Hx0) as (H2 & HQ). apply HQ. clear HQ. intros y0 Hy0.
      eexists. split; [exact (pre_ok bn act (3 * i + 1) M C _ H2)|].
      pose proof (preactivation_matrix bn act (3 * i + 1) M C _ Hbn Hact H2) as H3.
      destruct (Hm i lm _ x1 E2 H3 Hx1) as (H4 & HQ). apply HQ. clear HQ. intros y1 Hy1.
      eexists. split; [exact (pre_ok bn act (3 * i + 2) M C _ H4)|].
      pose proof (preactivation_matrix bn act (3 * i + 2) M C _ Hbn Hact H4) as H5.
      destruct (Hu i lu _ x2 E1 H5 Hx2) as (H6 & HQ). apply HQ. clear HQ. intros y2 Hy2.
      eexists. split.
      { rewrite (shortcut_ok projection N C pw pb i s F p Es HF Hp). cbn [bind].
        exact (add_rows N C _ _ H6 (shortcut_matrix projection N C pw pb i F HF)). }
      apply (IH (S i) rest y0 y1 y2 _ Er Hy0 Hy1 Hy2); [apply matrix_table|]. exact HP.
  Qed.
End Loops.

(** * The neighborhoods *)
Section Nbhs.
  Context (active : kernel -> nat) (pactive bactive warp : nat) (time : N) (eps : Q).
  Context (Hdev : device_ok active pactive bactive warp).
  Context (D : nat) (r : Q) (bw : R) (Hb : (0 < bw)%R).

  (** The neighborhood of the centers of another cloud. *)
  Lemma centers_gpu rows ids pin crows cids pout ceps CB cp (P : nbh -> Prop) :
    cuda_workable (scan_limit active warp) eps D r rows ids pin crows cids pout -> length ids <= scan_limit active warp ->
    is_cloud GPU ceps D crows cids CB cp ->
    (forall n, cready active pactive warp time D r bw rows ids crows cids (DNbh n None) -> nequal n = false -> nsampled n = cp -> nradii n = repeat r D ->
       (exists B, is_cloud GPU eps D rows ids B (gcloud (ngrid n))) -> P n) ->
    mk_grid_gpu (active KKeys) warp eps pin (repeat r D) (fun g => neighborhood_gpu active warp time g (repeat r D) (Some cp) 0 P).
  Proof using Hdev Hb.
    intros W Hlen0 Hcp HP. destruct W as [(B & Hc & HcB) (_ & _ & _) HD Hl Hr Hne (Hcne & Hlen)]. pose proof Hdev as [Ha _ _ Hw _].
    apply (mk_grid_gpu_ok (active KKeys) warp eps D rows ids B pin (repeat r D)); auto.
    - apply cloud_is, Hc.
    - now apply valid_repeat.
    - intros g G. replace (bcast D (repeat r D)) with (repeat r D) in G by (symmetry; apply all_dims_repeat).
      assert (Hl' : D <= 3 \/ (3 <= nth (D - 1) (gnc g) 0)%Z) by (apply (last_cells eps D r rows ids B g); auto; lia).
      eapply (neighborhood_gpu_ok active pactive bactive warp time eps Hdev D r rows ids B g HD Hr Hne G Hl' ceps crows cids CB cp (Some cp));
        [reflexivity|auto|exact Hcp|auto|auto|]. intros n Hn E. apply HP; auto.
      + split; [now exists g, cp|]. cbv zeta. right. split; [reflexivity|]. intros P0 HP0.
        apply (get_pdf_gpu_ok active pactive bactive warp time eps Hdev D r rows ids B g HD Hr Hne G Hl' bw Hb crows cids cp n P0); auto.
        apply (ic_dim _ _ _ _ _ _ _ Hcp).
      + apply (cn_sampled _ _ _ _ _ _ _ _ _ Hn).
      + apply (cn_radii _ _ _ _ _ _ _ _ _ Hn).
      + exists B. rewrite (cn_grid _ _ _ _ _ _ _ _ _ Hn). apply (gg_cloud _ _ _ _ _ _ _ G).
  Qed.

  Lemma passed_gpu rows ids pin crows cids pout (P : nbh -> Prop) :
    cuda_workable (scan_limit active warp) eps D r rows ids pin crows cids pout -> length ids <= scan_limit active warp ->
    (forall n, cready active pactive warp time D r bw rows ids crows cids (DNbh n None) -> nequal n = false -> nsampled n = pout -> nradii n = repeat r D ->
       (exists B, is_cloud GPU eps D rows ids B (gcloud (ngrid n))) -> P n) ->
    mk_grid_gpu (active KKeys) warp eps pin (repeat r D) (fun g => neighborhood_gpu active warp time g (repeat r D) (Some pout) 0 P).
  Proof using Hdev Hb.
    intros W Hlen HP. pose proof (cw_out _ _ _ _ _ _ _ _ _ _ W) as (ceps & CB & Ho).
    exact (centers_gpu rows ids pin crows cids pout ceps CB pout P W Hlen (cloud_is _ _ _ _ _ _ _ Ho) HP).
  Qed.

  (** The sorted points as centers. *)
  Lemma own_gpu rows ids p crows cids pout B (P : dnbh -> Prop) :
    cuda_workable (scan_limit active warp) eps D r rows ids p crows cids pout -> length ids <= scan_limit active warp ->
    cloud GPU eps D rows ids B p ->
    let s := gpu_order eps D r rows ids B in
    let spts := map (fun i => nth i rows []) s in
    let sbids := map (fun i => nth i ids 0) s in
    (forall x, cready active pactive warp time D r bw rows ids spts sbids x -> P x) ->
    own_nbh_gpu active warp time eps D p r P.
  Proof using Hdev Hb.
    intros W Hlen HcB s spts sbids HP. destruct W as [(B' & Hc & _) (_ & _ & _) HD Hl Hr Hne _]. pose proof Hdev as [Ha _ _ Hw _].
    assert (B' = B).
    { rewrite <- (ic_bsize _ _ _ _ _ _ _ (cloud_is _ _ _ _ _ _ _ Hc)). apply (ic_bsize _ _ _ _ _ _ _ (cloud_is _ _ _ _ _ _ _ HcB)). }
    subst B'. unfold own_nbh_gpu.
    apply (mk_grid_gpu_ok (active KKeys) warp eps D rows ids B p (repeat r D)); auto.
    - apply cloud_is, Hc.
    - now apply valid_repeat.
    - intros g G. replace (bcast D (repeat r D)) with (repeat r D) in G by (symmetry; apply all_dims_repeat).
      assert (Hl' : D <= 3 \/ (3 <= nth (D - 1) (gnc g) 0)%Z) by (apply (last_cells eps D r rows ids B g); auto; lia).
      destruct (sorted_gpu eps D r rows ids B g HD Hne G Hl' bw) as (sp & Esp & Cs). pose proof (GpuSampleFacts.sbids_len _ _ _ _ _ _ _ G) as Lb.
      assert (Es : spts = gspts g) by (unfold spts, s; rewrite (gg_spts _ _ _ _ _ _ _ G), (gpu_order_ok _ _ _ _ _ _ _ G); reflexivity).
      assert (Ei : sbids = gsbids g) by (unfold sbids, s; rewrite (gg_sbids _ _ _ _ _ _ _ G), (gpu_order_ok _ _ _ _ _ _ _ G); reflexivity).
      rewrite Es, Ei in HP.
      eapply (neighborhood_gpu_ok active pactive bactive warp time eps Hdev D r rows ids B g HD Hr Hne G Hl' eps (gspts g) (gsbids g) B sp None); auto.
      + intros E. rewrite E in Lb. cbn in Lb. destruct ids; [congruence|discriminate].
      + apply (ic_ids _ _ _ _ _ _ _ Cs).
      + now rewrite Lb.
      + intros n Hn E. apply HP. split; [now exists g, sp|]. cbv zeta. right. split; [reflexivity|]. intros P0 HP0.
        unfold get_pdf_gpu, compute_pdf_gpu. cbn [dpdf dn]. rewrite E, (cn_sampled _ _ _ _ _ _ _ _ _ Hn), (ic_dim _ _ _ _ _ _ _ Cs).
        replace (rcast D (repeat bw D)) with (repeat bw D) by (symmetry; apply all_axes_repeat).
        apply (density_self active pactive bactive warp eps Hdev D r rows ids B g HD Hr Hne G Hl' bw Hb sp n); [exact Hn|]. eexists. split.
        * assert (Lt : Forall (fun i => i < length (map (fun k => (ratio ^ D * density D (repeat bw D) (repeat r D) rows ids (nth k (gsidx g) 0%nat))%R) (seq 0 (length ids)))) (map fst (nnbs n))).
          { rewrite map_length, seq_length. apply Forall_map. eapply Forall_impl; [|exact (cn_lt _ _ _ _ _ _ _ _ _ Hn)]. cbv beta. tauto. }
          rewrite (gather_map _ _ 0%R Lt). reflexivity.
        * eexists. split; [reflexivity|]. cbn [dn] in HP0.
          match goal with |- P0 (DNbh n (Some ?l)) ?l => replace l with (map (fun q => (density_factor D * density D (repeat bw D) (repeat r D) rows ids (fst q))%R) (norig n)); [exact HP0|] end.
          rewrite (cn_orig _ _ _ _ _ _ _ _ _ Hn), !map_map. apply map_ext_in. intros q Hq. unfold to_original. cbn [fst].
          pose proof (cn_lt _ _ _ _ _ _ _ _ _ Hn) as F. rewrite Forall_forall in F. destruct (F q Hq) as (F1 & _).
          symmetry. now rewrite QFacts.nth_map_seq by exact F1.
  Qed.
End Nbhs.

(** The neighbors of the points in the order [s]. *)
Lemma order_near D r rows ids s i : Permutation s (seq 0 (length ids)) -> i < length ids ->
  near_points D r rows ids (map (fun i => nth i rows []) s) (map (fun i => nth i ids 0) s) i = near_points D r rows ids rows ids (nth i s 0).
Proof.
  intros Hp Hi. assert (L : length s = length ids) by (rewrite (Permutation_length Hp); apply seq_length).
  unfold near_points. apply filter_ext. intros j.
  rewrite (nth_indep (map (fun i => nth i rows []) s) [] (nth 0 rows [])) by (rewrite map_length; lia).
  rewrite (nth_indep (map (fun i => nth i ids 0) s) 0 (nth 0 ids 0)) by (rewrite map_length; lia).
  rewrite (map_nth (fun i => nth i rows [])), (map_nth (fun i => nth i ids 0)). reflexivity.
Qed.

(** A convolution of a cloud with the points in the order [s] as centers. *)
Lemma own_block_gpu active pactive bactive warp time eps D r bw rows ids p t C args a l mx (s : list nat) at_ F r' x (P : dnbh -> ten -> Prop) :
  device_ok active pactive bactive warp ->
  pts p = rows -> dim p = D -> length rows = length ids -> ids <> [] ->
  new_layer C C D t args = Ok l -> 0 < C -> cuda_applicable C args a ->
  matrix (length ids) C F -> 2 <= D <= 6 -> (0 < r)%Q -> (0 < bw)%R ->
  let dens := fun p => (density_factor D * density D (repeat bw D) (repeat r D) rows ids p)%R in
  let near := near_points D r rows ids rows ids in
  largest near (length ids) dens mx ->
  Permutation s (seq 0 (length ids)) -> (forall i, i < length ids -> at_ i = nth i s 0) ->
  let inv := cready active pactive warp time D r bw rows ids (map (fun i => nth i rows []) s) (map (fun i => nth i ids 0) s) in
  inv x ->
  let out := layer_formula (fun i => near (at_ i)) D rows rows r' dens (fun i => mx (at_ i)) (length ids) C C args a F in
  matrix (length ids) C out /\
  ((forall y, inv y -> P y (of_rows C out)) ->
   block_conv_gpu active pactive bactive warp time eps l (of_rows C F) p p r' x bw P).
Proof.
  intros Hdev Ep Ed El Hne Enew HC Ha HF HD Hr Hb dens near Hmx Hperm Hat inv Hx out.
  assert (Ls : length s = length ids) by (rewrite (Permutation_length Hperm); apply seq_length).
  assert (Hlt : forall i, i < length ids -> nth i s 0 < length ids).
  { intros i Hi'. assert (HI : In (nth i s 0) s) by (apply nth_In; lia). apply (Permutation_in _ Hperm) in HI. apply in_seq in HI. lia. }
  set (spts := map (fun i => nth i rows []) s) in *. set (sbids := map (fun i => nth i ids 0) s) in *.
  assert (Lb : length sbids = length ids) by (unfold sbids; now rewrite map_length).
  assert (Hnear : forall i, i < length ids -> near_points D r rows ids spts sbids i = near (nth i s 0)) by (intros i Hi; now apply order_near).
  unfold out.
  rewrite (layer_formula_ext (fun i => near (at_ i)) (near_points D r rows ids spts sbids)
             _ _ _ _ _ (fun i => mx (at_ i)) (fun i => mx (nth i s 0))).
  2:{ intros i Hi'. rewrite Hnear, Hat by exact Hi'. reflexivity. }
  2:{ intros i Hi'. now rewrite Hat. }
  destruct (layer_block_gpu active pactive bactive warp time eps D r bw rows ids spts sbids rows p p t C C args a l (fun i => mx (nth i s 0)) F r' x P) as (H1 & H2); auto.
  - now rewrite Lb.
  - intros E. rewrite E in Lb. cbn in Lb. destruct ids; [congruence|discriminate].
  - intros i Hi' Hn'. rewrite Lb in Hi'. rewrite Hnear in * by exact Hi'. apply Hmx; auto.
  - rewrite Lb in H1, H2. split; [exact H1|exact H2].
Qed.
