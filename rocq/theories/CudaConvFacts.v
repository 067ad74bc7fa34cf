(** The layers with the CUDA operations, step by step. *)
From Coq Require Import String List Arith ZArith NArith QArith Qround Qreals Reals Lia Lra Bool Permutation.
From Verif Require Import Tensor TensorFacts Spec SpecText TextFacts PointCloud SpecCloud History PointCloudFacts QFacts Grid SpecGrid GridFacts Neighbors SpecNeighbors NeighborFacts NeighborProofs Neighborhood NeighborhoodFacts
  SamplingFacts SamplingProofs Pdf SpecPdf PdfFacts PdfProofs RTensor RTensorFacts Layers SpecLayers LayerFacts LayerLink LayerProofs ConvProofs
  Cuda CudaFacts GpuGrid GpuGridFacts GpuNeighbors GpuNeighborFacts
  GpuBasis GpuBasisFacts SpecGpuBasis GpuBasisProofs GpuPdf SpecGpuPdf GpuPdfFacts GpuPdfProofs
  CudaLayers SpecCudaLayers CudaLayerFacts CudaDensityFacts.
Import ListNotations.
Local Open Scope nat_scope.

Lemma bind_ok {A B} (r : result A) (f : A -> result B) y : bind r f = Ok y -> exists x, r = Ok x /\ f x = Ok y.
Proof. destruct r; [eauto|discriminate]. Qed.

(** ** The shapes of the basis tensors *)
Lemma mc_basis_tensor cin cout dims mlps sizes act a w b fw l (n : nbh) (Pd : nat * nat -> R) x basis :
  mk_mcconv cin cout dims mlps sizes act w b fw = Ok l -> non_linearity act = Ok a ->
  mc_basis l (ttab [length (norig n); dims] x) (map Pd (norig n)) = Ok basis ->
  is_tensor [length (norig n); last sizes 0 * mlps] basis.
Proof.
  intros El Ea. apply mk_mcconv_inv in El. destruct El as (Hm & Hcout & Hs & Hin & Hd & HH & ->).
  set (H := last sizes 0) in *. set (M := length (norig n)) in *.
  unfold mc_basis. cbn [mc_sizes mc_dims mc_mlps mc_act mc_layers mc_in mc_final mc_out]. fold H.
  rewrite (treshape_infer_ttab [M; dims] [1] M [dims] x (fun idx => match idx with [_; m; d] => [m; d] | _ => [] end)).
  2:{ rewrite !nprod_cons, nprod_nil. lia. }
  2:{ rewrite !nprod_cons, nprod_nil. lia. }
  2:{ cbn [app]. intros idx Hi. idx_inv. split; [in_sh|]. cbn [RTensor.offset]. rewrite !nprod_cons, nprod_nil. nia. }
  cbn [bind app]. rewrite ttile0_ttab. cbn [bind].
  match goal with |- context [mc_hidden _ _ (ttab ?sh ?h)] =>
    replace (ttab sh h) with (ttab sh (fun idx => match idx with [m; j; d] => (fun _ j d => x [j; d]) m j d | _ => 0%R end))
      by (apply ttab_ext; intros idx Hi; idx_inv; reflexivity) end.
  rewrite (mc_hidden_ok act a) by auto. cbn [bind].
  assert (EH : last sizes dims = H).
  { unfold H. destruct sizes; [contradiction|]. now rewrite !last_cons_nat. }
  rewrite EH, ttranspose_102. cbn [bind].
  rewrite (treshape_infer_ttab [M; mlps; H] [] M [H * mlps] _ (fun idx => match idx with [m; k] => [m; k / H; k mod H] | _ => [] end)).
  2:{ rewrite !nprod_cons, nprod_nil. nia. }
  2:{ rewrite !nprod_cons, nprod_nil. nia. }
  2:{ cbn [app]. intros idx Hi. idx_inv. split.
      - in_sh; [apply Nat.div_lt_upper_bound; lia|apply Nat.mod_upper_bound; lia].
      - cbn [RTensor.offset]. rewrite !nprod_cons, nprod_nil. pose proof (Nat.div_mod i0 H HH). nia. }
  cbn [bind app]. rewrite of_rows_ttab, !map_length. fold M.
  rewrite (tbin_ttab _ _ _ [M; H * mlps]) by bc. intros E. injection E as <-. apply ttab_tensor.
Qed.

Lemma pt_basis_tensor D r rows ids crows cids n : pairs_of D r rows ids crows cids n ->
  forall cin cout H act a axis bias w w1 b1 w2 b2 (Pd : nat * nat -> R) x basis,
  rshape (nranges n) = [length cids] -> non_linearity act = Ok a ->
  pt_basis GPU (mk_pointconv cin cout D H act axis bias w w1 b1 w2 b2) (ttab [length (norig n); D] x) n (map Pd (norig n)) = Ok basis ->
  is_tensor [length (norig n); H] basis.
Proof.
  intros Hp cin cout H act a axis bias w w1 b1 w2 b2 Pd x basis Hs Ea. set (M := length (norig n)) in *.
  unfold pt_basis, mk_pointconv. cbn [pt_axis pt_bias pt_act pt_w1 pt_b1 pt_w2 pt_b2 pt_in pt_hidden pt_w].
  rewrite tmatmul2_ttab. cbn [bind]. rewrite (tbin_ttab _ _ _ [M; H]) by bc. cbn [bind]. rewrite Ea. cbn [bind].
  rewrite Hs. cbn [bind]. rewrite pdf_column. fold M.
  rewrite tsegment_ttab by (try apply (pairs_snd _ _ _ _ _ _ _ Hp); apply map_length). cbn [bind].
  rewrite tgather_ttab by apply (pairs_snd _ _ _ _ _ _ _ Hp). cbn [bind]. rewrite map_length. fold M.
  rewrite (tbin_ttab _ _ _ [M; 1]) by bc. cbn [bind].
  rewrite tmatmul2_ttab. cbn [bind]. rewrite (tbin_ttab _ _ _ [M; 16]) by bc. cbn [bind]. rewrite tmap_ttab.
  rewrite tmatmul2_ttab. cbn [bind]. rewrite (tbin_ttab _ _ _ [M; 1]) by bc. cbn [bind]. rewrite tmap_ttab.
  rewrite (tbin_ttab _ _ _ [M; H]) by bc. intros E. injection E as <-. apply ttab_tensor.
Qed.

Lemma ok_inj {A} (x y : A) : Ok x = Ok y -> y = x.
Proof. congruence. Qed.
Lemma kp_pad_size num M g b : 0 < num <= 64 -> kp_pad num (ttab [M; num] g) = Ok b ->
  exists K, In K [8; 16; 32; 64] /\ is_tensor [M; K] b.
Proof.
  intros Hn. unfold kp_pad.
  destruct (Nat.ltb_spec num 8).
  { rewrite tpad1_ttab. intros E. apply ok_inj in E. subst b. exists 8. split; [now left|]. replace (num + (8 - num)) with 8 by lia. apply ttab_tensor. }
  destruct (Nat.ltb_spec 8 num); destruct (Nat.ltb_spec num 16); cbn [andb].
  { rewrite tpad1_ttab. intros E. apply ok_inj in E. subst b. exists 16. split; [right; now left|]. replace (num + (16 - num)) with 16 by lia. apply ttab_tensor. }
  2:{ assert (num = 8) by lia. subst. cbn [Nat.ltb Nat.leb andb]. intros E. apply ok_inj in E. subst b. exists 8. split; [now left|apply ttab_tensor]. }
  2:{ lia. }
  destruct (Nat.ltb_spec 16 num); destruct (Nat.ltb_spec num 32); cbn [andb].
  { rewrite tpad1_ttab. intros E. apply ok_inj in E. subst b. exists 32. split; [right; right; now left|]. replace (num + (32 - num)) with 32 by lia. apply ttab_tensor. }
  2:{ assert (num = 16) by lia. subst. cbn [Nat.ltb Nat.leb andb]. intros E. apply ok_inj in E. subst b. exists 16. split; [right; now left|apply ttab_tensor]. }
  2:{ lia. }
  destruct (Nat.ltb_spec 32 num); destruct (Nat.ltb_spec num 64); cbn [andb].
  { rewrite tpad1_ttab. intros E. apply ok_inj in E. subst b. exists 64. split; [right; right; right; now left|]. replace (num + (64 - num)) with 64 by lia. apply ttab_tensor. }
  - assert (num = 64) by lia. subst. intros E. apply ok_inj in E. subst b. exists 64. split; [right; right; right; now left|apply ttab_tensor].
  - assert (num = 32) by lia. subst. intros E. apply ok_inj in E. subst b. exists 32. split; [right; right; now left|apply ttab_tensor].
  - lia.
Qed.

(** ** The neighborhood of a layer *)
Section Layer.
  Context (active : kernel -> nat) (pactive bactive warp : nat) (time : N) (eps : Q).
  Context (Hdev : device_ok active pactive bactive warp).
  Context (D : nat) (r : Q) (rows : list point) (ids : list nat) (pin : pc) (crows : list point) (cids : list nat) (pout : pc).
  Context (W : cuda_workable (scan_limit active warp) eps D r rows ids pin crows cids pout).

  Lemma cuda_grid_nbh (P : nbh -> Prop) :
    (forall B g n, is_gpu_grid eps D rows ids B (repeat r D) g -> (D <= 3 \/ (3 <= nth (D - 1) (gnc g) 0)%Z) ->
       cuda_nbh D r rows ids crows cids g pout n -> nequal n = false -> P n) ->
    mk_grid_gpu (active KKeys) warp eps pin (repeat r D) (fun g => neighborhood_gpu active warp time g (repeat r D) (Some pout) 0 P).
  Proof.
    intros HP. destruct W as [(B & Hc & HcB) (ceps & CB & Ho) HD Hl Hr Hne (Hcne & Hlen)]. pose proof Hdev as [Ha _ _ Hw _].
    apply (mk_grid_gpu_ok (active KKeys) warp eps D rows ids B pin (repeat r D)); auto.
    - apply cloud_is, Hc.
    - now apply valid_repeat.
    - intros g G. replace (bcast D (repeat r D)) with (repeat r D) in G by (symmetry; apply all_dims_repeat).
      assert (Hl' : D <= 3 \/ (3 <= nth (D - 1) (gnc g) 0)%Z) by (apply (last_cells eps D r rows ids B g); auto; lia).
      eapply (neighborhood_gpu_ok active pactive bactive warp time eps Hdev D r rows ids B g HD Hr Hne G Hl' ceps crows cids CB pout (Some pout));
        [reflexivity|auto|apply cloud_is, Ho|auto|auto|]. intros n Hn E. apply (HP B g n); auto.
  Qed.

  Lemma layer_nbh_gpu_ok (P : dnbh -> Prop) :
    (forall n, (exists g, cuda_nbh D r rows ids crows cids g pout n) ->
       (forall bw (Q : dnbh -> list R -> Prop), (0 < bw)%R -> length ids <= scan_limit active warp ->
          (let v := map (fun q => (ratio ^ D * density D (repeat bw D) (repeat r D) rows ids (fst q))%R) (norig n) in Q (DNbh n (Some v)) v) ->
          get_pdf_gpu active pactive warp time (DNbh n None) (repeat bw D) KConstant false Q) -> P (DNbh n None)) ->
    layer_nbh_gpu active warp time eps D pin pout r None P.
  Proof.
    intros HP. unfold layer_nbh_gpu. apply cuda_grid_nbh. intros B g n G Hl Hn E. apply HP; [now exists g|].
    intros bw Q Hb Hlen HQ. destruct W as [_ (ceps & CB & Ho) HD _ Hr Hne _].
    apply (get_pdf_gpu_ok active pactive bactive warp time eps Hdev D r rows ids B g HD Hr Hne G Hl bw Hb crows cids pout n Q); auto.
    apply (ic_dim _ _ _ _ _ _ _ (cloud_is _ _ _ _ _ _ _ Ho)).
  Qed.

  (** ** Kernel points *)
  Lemma kp_aggregate_step g n l d sigma C f w o (P : ten -> Prop) :
    cuda_nbh D r rows ids crows cids g pout n -> 0 < kp_num l <= 64 -> 0 < C /\ (C < 8 \/ C mod 8 = 0) ->
    kp_aggregate GPU l (ttab [length (norig n); kp_num l] d) sigma n (ttab [length ids; C] f) w = Ok o -> P o ->
    kp_aggregate_gpu bactive l (ttab [length (norig n); kp_num l] d) sigma n (ttab [length ids; C] f) w P.
  Proof.
    intros Hn HK HC E HP. destruct W as [_ _ _ _ _ _ (Hcne & _)]. destruct Hdev as [_ _ Hb _ _].
    unfold kp_aggregate in E. apply bind_ok in E. destruct E as (b & Eb & E). apply bind_ok in E. destruct E as (wf & Ew & E).
    exists b. split; [exact Eb|]. unfold kp_basis in Eb. rewrite tmap_ttab in Eb. destruct (kp_pad_size _ _ _ _ HK Eb) as (K & HK' & Tb).
    apply (projection_step bactive D r rows ids crows cids g pout n b (ttab [length ids; C] f) K C wf); auto.
    - split; auto.
    - apply ttab_tensor.
    - exists o. auto.
  Qed.
End Layer.
