(** Proofs of the agreement of the predictions of two calls of the
    classification networks, at least one of them with the CUDA operations
    (C66). The statements are copied into PropertiesCudaPrediction.v. *)
From Coq Require Import String List Arith ZArith NArith QArith Reals Qreals Lia Lra Bool Permutation.
From Verif Require Import GpuBasis GpuPdf Cuda GpuGrid Tensor TensorFacts Spec SpecText TextFacts PointCloud SpecCloud PointCloudFacts QFacts Grid SpecGrid GridFacts
  Neighbors SpecNeighbors NeighborFacts NeighborProofs Neighborhood NeighborhoodFacts NeighborhoodProofs
  Sampling SpecSampling SamplingFacts SamplingProofs Hierarchy SpecHierarchy HierarchyFacts HierarchyProofs LevelFacts CloudProofs Pdf SpecPdf PdfFacts PdfProofs
  RTensor RTensorFacts Kernels KernelProofs Layers SpecLayers LayerFacts LayerLink LayerProofs ConvProofs Blocks SpecBlocks BlockFacts BlockProofs
  Classifier SpecClassifier ClassifierFacts LastLevelFacts ClassifierProofs LargeFacts LargeProofs SpecMatch MatchFacts MatchLevel MatchNet PredictionProofs
  GpuNeighbors GpuSampling CudaLayers SpecCudaLayers CudaLayerProofs CudaNetwork SpecCudaNetwork CudaHierarchyProofs CudaNetFacts CudaNetProofs CudaLargeProofs.
Import ListNotations.
Local Open Scope nat_scope.

(** The convolutions with the CUDA operations respect the pairing. *)
Lemma cuda_match t mlps hidden v cin cout r tr e e2 (up lo up2 lo2 : batch) ps qs X X2 :
  matched 3 tr e up e2 up2 ps -> matched 3 tr e lo e2 lo2 qs -> rows_match ps X X2 ->
  rows_match qs (cuda_formula t mlps hidden v cin cout r up lo X) (cuda_formula t mlps hidden v cin cout r up2 lo2 X2).
Proof.
  intros H1 H2 H3. pose proof (script_match t mlps hidden v cin cout r tr e e2 up lo up2 lo2 ps qs X X2 H1 H2 H3) as H.
  destruct t; cbn [cuda_formula]; [|exact H|exact H].
  intros i j Hij. unfold cuda_formula. change (@nil R) with (map (fun x => x / (0.39894228 * sqrt (2 * PI)) ^ 3)%R []).
  rewrite !map_nth. now rewrite (H i j Hij).
Qed.

(** C66. Two calls of the network of modelnet40_small.py with the CUDA
    operations outside of training, with cell average sampling, on two devices
    and with any interleavings: the logits of a cloud that both batches contain
    agree, whatever the other clouds, the padding, the order of the points and a
    translation of the cloud. *)
Lemma C66_small_proof :
  forall active sactive pactive bactive warp time active2 sactive2 pactive2 bactive2 warp2 time2 eps feature_sizes sample_radii conv_radii name t mode vars ow ob net bn drop dw db
    B V points sizes features e B2 V2 points2 sizes2 features2 e2 s tr,
    let L := length sample_radii in
    let chans := fun i => nth i feature_sizes 0 in
    let u2 := nth (length feature_sizes - 1) feature_sizes 0 in
    let input := (valid_rows sizes V points, ids_of_sizes sizes) in
    let input2 := (valid_rows sizes2 V2 points2, ids_of_sizes sizes2) in
    device_samples active sactive pactive bactive warp -> device_samples active2 sactive2 pactive2 bactive2 warp2 ->
    means mode average_names -> 0 < L -> conv_named name t ->
    (forall i, i < L -> cuda_channels (chans i)) -> 0 < chans L ->
    mk_small feature_sizes sample_radii conv_radii name mode vars ow ob = Ok net ->
    (forall k, rowwise (bn k)) -> (forall k, rowwise (drop k)) ->
    length conv_radii = L -> Forall (fun r => (0 < r)%Q) conv_radii ->
    cuda_input (scan_limit active warp) eps B V points sizes sample_radii mode ->
    length features = B * V -> Forall (fun row => length row = chans 0) features ->
    cuda_input (scan_limit active2 warp2) eps B2 V2 points2 sizes2 sample_radii mode ->
    length features2 = B2 * V2 -> Forall (fun row => length row = chans 0) features2 ->
    (forall r, nth_error sample_radii (L - 1) = Some r -> one_sample mode eps r input /\ one_sample mode eps r input2) ->
    e < B -> e2 < B2 -> same_cloud 3 e V sizes points e2 V2 sizes2 points2 s tr ->
    same_rows e V (nth e sizes 0) features e2 V2 features2 s ->
    small_call_gpu active sactive pactive bactive warp time eps net bn drop dw db B
      (Padded [B] V points) (Feat (chans 0) (inl (Padded [B] V features))) sizes (fun out =>
      small_call_gpu active2 sactive2 pactive2 bactive2 warp2 time2 eps net bn drop dw db B2
        (Padded [B2] V2 points2) (Feat (chans 0) (inl (Padded [B2] V2 features2))) sizes2 (fun out2 =>
        exists logits logits2, out = Feat u2 (inr logits) /\ out2 = Feat u2 (inr logits2) /\
          matrix B u2 logits /\ matrix B2 u2 logits2 /\ nth e logits [] = nth e2 logits2 [])).
Proof.
  intros active sactive pactive bactive warp time active2 sactive2 pactive2 bactive2 warp2 time2 eps fs rs cs name t mode vars ow ob net bn drop dw db B V points sizes F e B2 V2 points2 sizes2 F2 e2 s tr
    L chans u2 input input2 Hdev Hdev2 Hm HL Hn Hch0 Hpos Hnet Hbn Hdr Hc1 Hc2 Hb Hf1 Hf2 Hb2 Hf1' Hf2' Hone He He2 Hcl Hrw.
  assert (HpL : 0 < nth L fs 0) by exact Hpos.
  apply (small_runs active sactive pactive bactive warp time eps B V points sizes fs rs cs name t mode vars ow ob net bn drop dw db F _ Hdev Hb HL Hc1 Hc2 Hn Hch0 HpL Hnet (fun k => rowwise_keeps _ (Hbn k)) (fun k => rowwise_keeps _ (Hdr k)) Hf1 Hf2).
  intros out (data & Hch & HM & HA & H1 & ->).
  apply (small_runs active2 sactive2 pactive2 bactive2 warp2 time2 eps B2 V2 points2 sizes2 fs rs cs name t mode vars ow ob net bn drop dw db F2 _ Hdev2 Hb2 HL Hc1 Hc2 Hn Hch0 HpL Hnet (fun k => rowwise_keeps _ (Hbn k)) (fun k => rowwise_keeps _ (Hdr k)) Hf1' Hf2').
  intros out2 (data2 & Hch2 & HM2 & HA2 & H2 & ->).
  cbv zeta in *.
  destruct (nth_error rs (L - 1)) as [r|] eqn:Er; [|apply nth_error_None in Er; lia]. destruct (Hone r eq_refl) as [O1 O2].
  destruct (H1 r Er O1) as [N1 K1]. destruct (H2 r Er O2) as [N2 K2]. clear H1 H2.
  eexists. eexists. split; [reflexivity|]. split; [reflexivity|]. rewrite N1 in HM. rewrite N2 in HM2. rewrite N1, N2. 
  split; [exact HM|]. split; [exact HM2|]. clear HM HM2.
  destruct (ci_points _ _ _ _ _ _ _ _ Hb) as [P1 _]. destruct (ci_sizes _ _ _ _ _ _ _ _ Hb) as [S1 S1'].
  destruct (ci_points _ _ _ _ _ _ _ _ Hb2) as [P2 _]. destruct (ci_sizes _ _ _ _ _ _ _ _ Hb2) as [S2 S2'].
  apply (small_core eps fs rs cs mode (fun i r up lo X => cuda_formula t 4 8 (vars i) (chans i) (chans (S i)) r up lo X) ow ob bn drop dw db B V points sizes F e B2 V2 points2 sizes2 F2 e2 s tr data data2 _ u2
    Hm HL Hc1 Hbn Hdr); auto.
    + intros. apply cuda_formula_matrix.
    + intros i r0 up lo up2 lo2 ps qs X X2 A1 A2 A3. now apply (cuda_match _ _ _ _ _ _ _ tr e e2 up lo up2 lo2 ps qs).
Qed.

(** The same for the residual network of modelnet40.py. *)
Lemma C66_large_proof :
  forall active sactive pactive bactive warp time active2 sactive2 pactive2 bactive2 warp2 time2 eps feature_sizes pool_radii conv_radii name t mode iv sv bv net bns bnb bn drop dw db
    B V points sizes features e B2 V2 points2 sizes2 features2 e2 s tr x,
    let L := length pool_radii in
    let chans := fun i => nth i feature_sizes 0 in
    let u2 := nth (length feature_sizes - 1) feature_sizes 0 in
    let input := (valid_rows sizes V points, ids_of_sizes sizes) in
    let input2 := (valid_rows sizes2 V2 points2, ids_of_sizes sizes2) in
    device_samples active sactive pactive bactive warp -> device_samples active2 sactive2 pactive2 bactive2 warp2 ->
    means mode average_names -> 0 < L -> conv_named name t ->
    (forall i, i < L -> cuda_channels (chans i / 4)) ->
    mk_large feature_sizes pool_radii conv_radii name mode iv sv bv = Ok net ->
    (forall i k, rowwise (bns i k)) -> (forall i k, rowwise (bnb i k)) ->
    (forall k, rowwise (bn k)) -> (forall k, rowwise (drop k)) ->
    length conv_radii = L -> Forall (fun r => (0 < r)%Q) conv_radii ->
    cuda_input (scan_limit active warp) eps B V points sizes pool_radii mode ->
    length features = B * V -> Forall (fun row => length row = 1) features ->
    cuda_input (scan_limit active2 warp2) eps B2 V2 points2 sizes2 pool_radii mode ->
    length features2 = B2 * V2 -> Forall (fun row => length row = 1) features2 ->
    e < B -> e2 < B2 -> same_cloud 3 e V sizes points e2 V2 sizes2 points2 s tr ->
    (forall k, k < nth e sizes 0 -> nth (e * V + k) features [] = [x] /\ nth (e2 * V2 + k) features2 [] = [x]) ->
    large_call_gpu active sactive pactive bactive warp time eps net bns bnb bn drop dw db B
      (Padded [B] V points) (Feat 1 (inl (Padded [B] V features))) sizes (fun out =>
      large_call_gpu active2 sactive2 pactive2 bactive2 warp2 time2 eps net bns bnb bn drop dw db B2
        (Padded [B2] V2 points2) (Feat 1 (inl (Padded [B2] V2 features2))) sizes2 (fun out2 =>
        exists logits logits2, out = Feat u2 (inr logits) /\ out2 = Feat u2 (inr logits2) /\
          matrix B u2 logits /\ matrix B2 u2 logits2 /\ nth e logits [] = nth e2 logits2 [])).
Proof.
  intros active sactive pactive bactive warp time active2 sactive2 pactive2 bactive2 warp2 time2 eps fs rs cs name t mode iv sv bv net bns bnb bn drop dw db B V points sizes F e B2 V2 points2 sizes2 F2 e2 s tr x
    L chans u2 input input2 Hdev Hdev2 Hm HL Hn Hch0 Hnet Hbs Hbb Hbn Hdr Hc1 Hc2 Hb Hf1 Hf2 Hb2 Hf1' Hf2' He He2 Hcl Hx.
  apply (large_runs active sactive pactive bactive warp time eps B V points sizes fs rs cs name t mode iv sv bv net bns bnb bn drop dw db F _ Hdev Hb HL Hc1 Hc2 Hn Hch0 Hnet (fun i k => rowwise_keeps _ (Hbs i k)) (fun i k => rowwise_keeps _ (Hbb i k)) (fun k => rowwise_keeps _ (Hbn k)) (fun k => rowwise_keeps _ (Hdr k)) Hf1 Hf2).
  intros out (data & Hch & HM & ->).
  apply (large_runs active2 sactive2 pactive2 bactive2 warp2 time2 eps B2 V2 points2 sizes2 fs rs cs name t mode iv sv bv net bns bnb bn drop dw db F2 _ Hdev2 Hb2 HL Hc1 Hc2 Hn Hch0 Hnet (fun i k => rowwise_keeps _ (Hbs i k)) (fun i k => rowwise_keeps _ (Hbb i k)) (fun k => rowwise_keeps _ (Hbn k)) (fun k => rowwise_keeps _ (Hdr k)) Hf1' Hf2').
  intros out2 (data2 & Hch2 & HM2 & ->).
  cbv zeta in *.
  eexists. eexists. split; [reflexivity|]. split; [reflexivity|]. 
  split; [exact HM|]. split; [exact HM2|]. clear HM HM2.
  destruct (ci_points _ _ _ _ _ _ _ _ Hb) as [P1 _]. destruct (ci_sizes _ _ _ _ _ _ _ _ Hb) as [S1 S1'].
  destruct (ci_points _ _ _ _ _ _ _ _ Hb2) as [P2 _]. destruct (ci_sizes _ _ _ _ _ _ _ _ Hb2) as [S2 S2'].
  apply (large_core eps fs rs cs mode (fun v cin cout r up lo X => cuda_formula t 1 16 v cin cout r up lo X) iv sv bv bns bnb bn drop dw db B V points sizes F e B2 V2 points2 sizes2 F2 e2 s tr x data data2 _ u2
    Hm HL Hc1 Hbs Hbb Hbn Hdr); auto.
    + intros. apply cuda_formula_matrix.
    + intros v cin cout r up lo up2 lo2 ps qs' X X2 A1 A2 A3. now apply (cuda_match _ _ _ _ _ _ _ tr e e2 up lo up2 lo2 ps qs').
Qed.

(** C66, a call with the CUDA operations and one with the pure TensorFlow
    fallback: the logits of the small network agree for PointConv and KPConv.
    Missing: MCConv, whose CUDA densities are larger by a constant (C55). *)
Lemma C66_small_fallback_partial_proof :
  forall active sactive pactive bactive warp time eps feature_sizes sample_radii conv_radii name t mode vars ow ob net bn drop dw db
    B V points sizes features e B2 V2 points2 sizes2 features2 fuel2 draws2 e2 s tr,
    let L := length sample_radii in
    let chans := fun i => nth i feature_sizes 0 in
    let u2 := nth (length feature_sizes - 1) feature_sizes 0 in
    let input := (valid_rows sizes V points, ids_of_sizes sizes) in
    let input2 := (valid_rows sizes2 V2 points2, ids_of_sizes sizes2) in
    device_samples active sactive pactive bactive warp ->
    means mode average_names -> 0 < L -> conv_named name t -> t <> TMC -> (t = TPT -> 2 <= B2) ->
    (forall i, i < L -> cuda_channels (chans i)) -> Forall (fun c => 0 < c) feature_sizes ->
    mk_small feature_sizes sample_radii conv_radii name mode vars ow ob = Ok net ->
    (forall k, rowwise (bn k)) -> (forall k, rowwise (drop k)) ->
    cuda_input (scan_limit active warp) eps B V points sizes sample_radii mode ->
    length features = B * V -> Forall (fun row => length row = chans 0) features ->
    input_batch eps B2 V2 points2 sizes2 sample_radii mode fuel2 -> search_radii eps B2 input2 L conv_radii ->
    length features2 = B2 * V2 -> Forall (fun row => length row = chans 0) features2 ->
    (forall r, nth_error sample_radii (L - 1) = Some r -> one_sample mode eps r input /\ one_sample mode eps r input2) ->
    e < B -> e2 < B2 -> same_cloud 3 e V sizes points e2 V2 sizes2 points2 s tr ->
    same_rows e V (nth e sizes 0) features e2 V2 features2 s ->
    small_call_gpu active sactive pactive bactive warp time eps net bn drop dw db B
      (Padded [B] V points) (Feat (chans 0) (inl (Padded [B] V features))) sizes (fun out =>
      exists logits logits2, out = Feat u2 (inr logits) /\
        small_call GPU eps (find_neighbors_tf GPU) (compute_pdf_tf GPU) net bn drop dw db fuel2 draws2 B2
          (Padded [B2] V2 points2) (Feat (chans 0) (inl (Padded [B2] V2 features2))) sizes2 = Some (Ok (Feat u2 (inr logits2))) /\
        matrix B u2 logits /\ matrix B2 u2 logits2 /\ nth e logits [] = nth e2 logits2 []).
Proof.
  intros active sactive pactive bactive warp time eps fs rs cs name t mode vars ow ob net bn drop dw db B V points sizes F e B2 V2 points2 sizes2 F2 fuel2 draws2 e2 s tr
    L chans u2 input input2 Hdev Hm HL Hn Ht Ht2 Hch0 Hpos Hnet Hbn Hdr Hb Hf1 Hf2 Hb2 Hs2 Hf1' Hf2' Hone He He2 Hcl Hrw.
  assert (Hc1 : length cs = L) by apply Hs2.
  assert (Hc2 : Forall (fun r => (0 < r)%Q) cs) by (eapply Forall_impl; [|apply Hs2]; cbn; tauto).
  assert (HpL : 0 < nth L fs 0).
  { rewrite Forall_forall in Hpos. destruct (mk_small_inv _ _ _ _ _ _ _ _ _ Hnet) as (_ & _ & _ & _ & _ & _ & _ & _ & N9). cbv zeta in N9. fold L in N9.
    apply Hpos, nth_In. destruct (N9 (L - 1) ltac:(lia)) as (c & _ & El & _).
    replace (L - 1 + 1) with L in El by lia. destruct (item fs (L - 1)) as [a|ea] eqn:Ea; destruct (item fs L) as [b|eb] eqn:Eb;
      try (exfalso; destruct Hn as [[-> _]|[[-> _]|[-> _]]]; discriminate).
    all: apply item_inv in Eb; apply Eb. }
  apply (small_runs active sactive pactive bactive warp time eps B V points sizes fs rs cs name t mode vars ow ob net bn drop dw db F _ Hdev Hb HL Hc1 Hc2 Hn Hch0 HpL Hnet (fun k => rowwise_keeps _ (Hbn k)) (fun k => rowwise_keeps _ (Hdr k)) Hf1 Hf2).
  intros out (data & Hch & HM & HA & H1 & ->).
  destruct (C58_logits_partial_proof eps B2 V2 points2 sizes2 fs rs cs name t mode vars ow ob net bn drop dw db fuel2 draws2 F2
    Hb2 HL Hs2 Hn Ht2 Hpos Hnet (fun k => rowwise_keeps _ (Hbn k)) (fun k => rowwise_keeps _ (Hdr k)) Hf1' Hf2') as (data2 & Hch2 & HM2 & HA2 & H2 & E2).
  cbv zeta in *.
  destruct (nth_error rs (L - 1)) as [r|] eqn:Er; [|apply nth_error_None in Er; lia]. destruct (Hone r eq_refl) as [O1 O2].
  destruct (H1 r Er O1) as [N1 K1]. destruct (H2 r Er O2) as [N2 K2]. clear H1 H2.
  eexists. eexists. split; [reflexivity|]. split; [exact E2|]. rewrite N1 in HM. rewrite N2 in HM2. rewrite N1, N2. 
  split; [exact HM|]. split; [exact HM2|]. clear HM HM2 E2.
  destruct (ci_points _ _ _ _ _ _ _ _ Hb) as [P1 _]. destruct (ci_sizes _ _ _ _ _ _ _ _ Hb) as [S1 S1'].
  destruct (ib_points _ _ _ _ _ _ _ _ Hb2) as [P2 _]. destruct (ib_sizes _ _ _ _ _ _ _ _ Hb2) as [S2 S2'].
  destruct t; [congruence| |].
  - apply (small_core eps fs rs cs mode (fun i r up lo X => cuda_formula TKP 4 8 (vars i) (chans i) (chans (S i)) r up lo X) ow ob bn drop dw db B V points sizes F e B2 V2 points2 sizes2 F2 e2 s tr data data2 _ u2
    Hm HL Hc1 Hbn Hdr); auto.
    + intros. apply cuda_formula_matrix.
    + intros i r0 up lo up2 lo2 ps qs X X2 A1 A2 A3. now apply (cuda_match _ _ _ _ _ _ _ tr e e2 up lo up2 lo2 ps qs).
  - apply (small_core eps fs rs cs mode (fun i r up lo X => cuda_formula TPT 4 8 (vars i) (chans i) (chans (S i)) r up lo X) ow ob bn drop dw db B V points sizes F e B2 V2 points2 sizes2 F2 e2 s tr data data2 _ u2
    Hm HL Hc1 Hbn Hdr); auto.
    + intros. apply cuda_formula_matrix.
    + intros i r0 up lo up2 lo2 ps qs X X2 A1 A2 A3. now apply (cuda_match _ _ _ _ _ _ _ tr e e2 up lo up2 lo2 ps qs).
Qed.

(** The same for the residual network. *)
Lemma C66_large_fallback_partial_proof :
  forall active sactive pactive bactive warp time eps feature_sizes pool_radii conv_radii name t mode iv sv bv net bns bnb bn drop dw db
    B V points sizes features e B2 V2 points2 sizes2 features2 fuel2 draws2 e2 s tr x,
    let L := length pool_radii in
    let chans := fun i => nth i feature_sizes 0 in
    let u2 := nth (length feature_sizes - 1) feature_sizes 0 in
    let input := (valid_rows sizes V points, ids_of_sizes sizes) in
    let input2 := (valid_rows sizes2 V2 points2, ids_of_sizes sizes2) in
    device_samples active sactive pactive bactive warp ->
    means mode average_names -> 0 < L -> conv_named name t -> t <> TMC -> (t = TPT -> 2 <= B2) ->
    (forall i, i < L -> cuda_channels (chans i / 4)) ->
    mk_large feature_sizes pool_radii conv_radii name mode iv sv bv = Ok net ->
    (forall i k, rowwise (bns i k)) -> (forall i k, rowwise (bnb i k)) ->
    (forall k, rowwise (bn k)) -> (forall k, rowwise (drop k)) ->
    cuda_input (scan_limit active warp) eps B V points sizes pool_radii mode ->
    length features = B * V -> Forall (fun row => length row = 1) features ->
    input_batch eps B2 V2 points2 sizes2 pool_radii mode fuel2 -> search_radii eps B2 input2 L conv_radii ->
    length features2 = B2 * V2 -> Forall (fun row => length row = 1) features2 ->
    e < B -> e2 < B2 -> same_cloud 3 e V sizes points e2 V2 sizes2 points2 s tr ->
    (forall k, k < nth e sizes 0 -> nth (e * V + k) features [] = [x] /\ nth (e2 * V2 + k) features2 [] = [x]) ->
    large_call_gpu active sactive pactive bactive warp time eps net bns bnb bn drop dw db B
      (Padded [B] V points) (Feat 1 (inl (Padded [B] V features))) sizes (fun out =>
      exists logits logits2, out = Feat u2 (inr logits) /\
        large_call GPU eps (find_neighbors_tf GPU) (compute_pdf_tf GPU) net bns bnb bn drop dw db fuel2 draws2 B2
          (Padded [B2] V2 points2) (Feat 1 (inl (Padded [B2] V2 features2))) sizes2 = Some (Ok (Feat u2 (inr logits2))) /\
        matrix B u2 logits /\ matrix B2 u2 logits2 /\ nth e logits [] = nth e2 logits2 []).
Proof.
  intros active sactive pactive bactive warp time eps fs rs cs name t mode iv sv bv net bns bnb bn drop dw db B V points sizes F e B2 V2 points2 sizes2 F2 fuel2 draws2 e2 s tr x
    L chans u2 input input2 Hdev Hm HL Hn Ht Ht2 Hch0 Hnet Hbs Hbb Hbn Hdr Hb Hf1 Hf2 Hb2 Hs2 Hf1' Hf2' He He2 Hcl Hx.
  assert (Hc1 : length cs = L) by apply Hs2.
  assert (Hc2 : Forall (fun r => (0 < r)%Q) cs) by (eapply Forall_impl; [|apply Hs2]; cbn; tauto).
  apply (large_runs active sactive pactive bactive warp time eps B V points sizes fs rs cs name t mode iv sv bv net bns bnb bn drop dw db F _ Hdev Hb HL Hc1 Hc2 Hn Hch0 Hnet (fun i k => rowwise_keeps _ (Hbs i k)) (fun i k => rowwise_keeps _ (Hbb i k)) (fun k => rowwise_keeps _ (Hbn k)) (fun k => rowwise_keeps _ (Hdr k)) Hf1 Hf2).
  intros out (data & Hch & HM & ->).
  assert (Hpos : forall i, i < L -> 4 <= chans i).
  { intros i Hi. destruct (Hch0 i Hi) as [Hq _]. destruct (le_lt_dec 4 (chans i)) as [l|l]; [exact l|]. rewrite Nat.div_small in Hq by exact l. lia. }
  destruct (C59_logits_partial_proof eps B2 V2 points2 sizes2 fs rs cs name t mode iv sv bv net bns bnb bn drop dw db fuel2 draws2
    Hb2 HL Hs2 Hn Ht2 Hpos Hnet (fun i k => rowwise_keeps _ (Hbs i k)) (fun i k => rowwise_keeps _ (Hbb i k)) (fun k => rowwise_keeps _ (Hbn k)) (fun k => rowwise_keeps _ (Hdr k))) as (data2 & Hch2 & Hcall2).
  destruct (Hcall2 F2 Hf1' Hf2') as [HM2 E2]. clear Hcall2.
  cbv zeta in *.
  eexists. eexists. split; [reflexivity|]. split; [exact E2|]. 
  split; [exact HM|]. split; [exact HM2|]. clear HM HM2 E2.
  destruct (ci_points _ _ _ _ _ _ _ _ Hb) as [P1 _]. destruct (ci_sizes _ _ _ _ _ _ _ _ Hb) as [S1 S1'].
  destruct (ib_points _ _ _ _ _ _ _ _ Hb2) as [P2 _]. destruct (ib_sizes _ _ _ _ _ _ _ _ Hb2) as [S2 S2'].
  destruct t; [congruence| |].
  - apply (large_core eps fs rs cs mode (fun v cin cout r up lo X => cuda_formula TKP 1 16 v cin cout r up lo X) iv sv bv bns bnb bn drop dw db B V points sizes F e B2 V2 points2 sizes2 F2 e2 s tr x data data2 _ u2
    Hm HL Hc1 Hbs Hbb Hbn Hdr); auto.
    + intros. apply cuda_formula_matrix.
    + intros v cin cout r up lo up2 lo2 ps qs' X X2 A1 A2 A3. now apply (cuda_match _ _ _ _ _ _ _ tr e e2 up lo up2 lo2 ps qs').
  - apply (large_core eps fs rs cs mode (fun v cin cout r up lo X => cuda_formula TPT 1 16 v cin cout r up lo X) iv sv bv bns bnb bn drop dw db B V points sizes F e B2 V2 points2 sizes2 F2 e2 s tr x data data2 _ u2
    Hm HL Hc1 Hbs Hbb Hbn Hdr); auto.
    + intros. apply cuda_formula_matrix.
    + intros v cin cout r up lo up2 lo2 ps qs' X X2 A1 A2 A3. now apply (cuda_match _ _ _ _ _ _ _ tr e e2 up lo up2 lo2 ps qs').
Qed.

(** ** Concrete case: a batch of one cloud, and the batch of the examples of C60
    with the same cloud second, in reverse order and moved by 1. *)
Lemma ex66_inputs active warp active2 warp2 :
  cuda_input (scan_limit active warp) (1#1000) 1 3 ex65_points [2] [1#1; 4#1]%Q "cell average" /\
  cuda_input (scan_limit active2 warp2) (1#1000) 2 2 ex60_points ex60_sizes [1#1; 4#1]%Q "cell average".
Proof.
  assert (Hl : forall a w, 3 <= scan_limit a w) by (intros; apply Nat.le_trans with (2 ^ 8 * 2); [apply Nat.leb_le; reflexivity|apply Nat.le_add_r]).
  assert (Hm : means "cell average" average_names) by (apply means_average; cbn; tauto).
  split.
  - constructor.
    + split; [reflexivity|repeat constructor].
    + split; [reflexivity|]. constructor; [lia|constructor].
    + lia.
    + right. exact Hm.
    + reflexivity.
    + cbn [fold_right]. specialize (Hl active warp). lia.
    + repeat (constructor; [reflexivity|]). constructor.
  - constructor.
    + split; [reflexivity|repeat constructor].
    + split; [reflexivity|]. constructor; [lia|]. constructor; [lia|constructor].
    + lia.
    + right. exact Hm.
    + reflexivity.
    + exact (Hl active2 warp2).
    + repeat (constructor; [reflexivity|]). constructor.
Qed.
Lemma ex66_one :
  one_sample "cell average" (1#1000) (4#1) (valid_rows [2] 3 ex65_points, ids_of_sizes [2]) /\
  one_sample "cell average" (1#1000) (4#1) (valid_rows ex60_sizes 2 ex60_points, ids_of_sizes ex60_sizes).
Proof.
  split; [|exact (proj2 ex60_one)]. right; (split; [apply means_average; cbn; tauto|]); intros i j d Hi Hj Hd E; change (i < 2) in Hi; change (j < 2) in Hj;
    do 2 (destruct i as [|i]; [do 2 (destruct j as [|j]; [do 3 (destruct d as [|d]; [first [discriminate E|vm_compute; discriminate]|]); lia|]); lia|]); lia.
Qed.
Lemma ex66_same : same_cloud 3 0 3 [2] ex65_points 1 2 ex60_sizes ex60_points [1; 0] ex60_move.
Proof.
  split; [reflexivity|]. split; [constructor|]. intros k d Hk Hd. change (k < 2) in Hk.
  do 2 (destruct k as [|k]; [do 3 (destruct d as [|d]; [reflexivity|]); lia|]). lia.
Qed.

Lemma ex66_small_net vars ow ob : exists net, mk_small [1; 8; 8; 8; 3] [1#1; 4#1]%Q [1#1; 4#1]%Q "PointConv" "cell average" vars ow ob = Ok net.
Proof. eexists; unfold mk_small; cbn; reflexivity. Qed.
Lemma ex66_large_net iv sv bv : exists net, mk_large [4; 8; 8; 3] [1#1; 4#1]%Q [1#1; 4#1]%Q "PointConv" "cell average" iv sv bv = Ok net.
Proof. eexists; unfold mk_large, mk_block; cbn; reflexivity. Qed.

Example C66_small_ex_proof :
  same_cloud 3 0 3 [2] ex65_points 1 2 ex60_sizes ex60_points [1; 0] ex60_move /\
  forall active sactive pactive bactive warp time active2 sactive2 pactive2 bactive2 warp2 time2, device_samples active sactive pactive bactive warp -> device_samples active2 sactive2 pactive2 bactive2 warp2 ->
    forall vars ow ob dw db (f : nat -> R), exists net,
      mk_small [1; 8; 8; 8; 3] [1#1; 4#1]%Q [1#1; 4#1]%Q "MCConv" "cell average" vars ow ob = Ok net /\
      small_call_gpu active sactive pactive bactive warp time (1#1000) net (fun _ X => X) (fun _ X => X) dw db 1
        (Padded [1] 3 ex65_points) (Feat 1 (inl (Padded [1] 3 [[f 0]; [f 1]; [0%R]]))) [2] (fun out =>
        small_call_gpu active2 sactive2 pactive2 bactive2 warp2 time2 (1#1000) net (fun _ X => X) (fun _ X => X) dw db 2
          (Padded [2] 2 ex60_points) (Feat 1 (inl (Padded [2] 2 [[f 3]; [f 4]; [f 1]; [f 0]]))) ex60_sizes (fun out2 =>
          exists logits logits2, out = Feat 3 (inr logits) /\ out2 = Feat 3 (inr logits2) /\
            matrix 1 3 logits /\ matrix 2 3 logits2 /\ nth 0 logits [] = nth 1 logits2 [])).
Proof.
  split; [exact ex66_same|]. intros active sactive pactive bactive warp time active2 sactive2 pactive2 bactive2 warp2 time2 Hdev Hdev2 vars ow ob dw db f.
  destruct (ex66_inputs active warp active2 warp2) as [Hb Hb2].
  destruct (ex58_net _ _ "cell average" vars ow ob (or_intror (or_introl eq_refl))) as (net & En). exists net. split; [exact En|].
  assert (Hm : means "cell average" average_names) by (apply means_average; cbn; tauto).
  exact (C66_small_proof active sactive pactive bactive warp time active2 sactive2 pactive2 bactive2 warp2 time2 (1#1000) [1; 8; 8; 8; 3] [1#1; 4#1]%Q [1#1; 4#1]%Q "MCConv" TMC "cell average" vars ow ob net (fun _ X => X) (fun _ X => X) dw db
    1 3 ex65_points [2] [[f 0]; [f 1]; [0%R]] 0 2 2 ex60_points ex60_sizes [[f 3]; [f 4]; [f 1]; [f 0]] 1 [1; 0] ex60_move
    Hdev Hdev2 Hm ltac:(cbn; lia) (or_introl (conj eq_refl eq_refl)) ltac:(intros [|[|i]] Hi; cbn in *; [split; [lia|left; lia]|split; [lia|right; reflexivity]|lia]) ltac:(cbn; lia) En (fun _ => rowwise_id) (fun _ => rowwise_id)
    eq_refl ltac:(repeat (constructor; [reflexivity|]); constructor) Hb eq_refl ltac:(repeat constructor) Hb2 eq_refl ltac:(repeat constructor) ltac:(intros r Er; injection Er as <-; exact ex66_one) ltac:(lia) ltac:(lia) ex66_same
    ltac:(intros [|[|k]] Hk; [reflexivity|reflexivity|cbn in Hk; lia])).
Qed.

Example C66_large_ex_proof :
  same_cloud 3 0 3 [2] ex65_points 1 2 ex60_sizes ex60_points [1; 0] ex60_move /\
  forall active sactive pactive bactive warp time active2 sactive2 pactive2 bactive2 warp2 time2, device_samples active sactive pactive bactive warp -> device_samples active2 sactive2 pactive2 bactive2 warp2 ->
    forall iv sv bv dw db (f : nat -> R), exists net,
      mk_large [4; 8; 8; 3] [1#1; 4#1]%Q [1#1; 4#1]%Q "MCConv" "cell average" iv sv bv = Ok net /\
      large_call_gpu active sactive pactive bactive warp time (1#1000) net (fun _ _ X => X) (fun _ _ X => X) (fun _ X => X) (fun _ X => X) dw db 1
        (Padded [1] 3 ex65_points) (Feat 1 (inl (Padded [1] 3 [[1%R]; [1%R]; [f 0]]))) [2] (fun out =>
        large_call_gpu active2 sactive2 pactive2 bactive2 warp2 time2 (1#1000) net (fun _ _ X => X) (fun _ _ X => X) (fun _ X => X) (fun _ X => X) dw db 2
          (Padded [2] 2 ex60_points) (Feat 1 (inl (Padded [2] 2 [[f 3]; [f 4]; [1%R]; [1%R]]))) ex60_sizes (fun out2 =>
          exists logits logits2, out = Feat 3 (inr logits) /\ out2 = Feat 3 (inr logits2) /\
            matrix 1 3 logits /\ matrix 2 3 logits2 /\ nth 0 logits [] = nth 1 logits2 [])).
Proof.
  split; [exact ex66_same|]. intros active sactive pactive bactive warp time active2 sactive2 pactive2 bactive2 warp2 time2 Hdev Hdev2 iv sv bv dw db f.
  destruct (ex66_inputs active warp active2 warp2) as [Hb Hb2].
  destruct (ex59_net _ _ "cell average" iv sv bv (or_intror (or_introl eq_refl))) as (net & En). exists net. split; [exact En|].
  assert (Hm : means "cell average" average_names) by (apply means_average; cbn; tauto).
  exact (C66_large_proof active sactive pactive bactive warp time active2 sactive2 pactive2 bactive2 warp2 time2 (1#1000) [4; 8; 8; 3] [1#1; 4#1]%Q [1#1; 4#1]%Q "MCConv" TMC "cell average" iv sv bv net (fun _ _ X => X) (fun _ _ X => X) (fun _ X => X) (fun _ X => X) dw db
    1 3 ex65_points [2] [[1%R]; [1%R]; [f 0]] 0 2 2 ex60_points ex60_sizes [[f 3]; [f 4]; [1%R]; [1%R]] 1 [1; 0] ex60_move 1%R
    Hdev Hdev2 Hm ltac:(cbn; lia) (or_introl (conj eq_refl eq_refl)) ltac:(intros [|[|i]] Hi; cbn in *; [split; [lia|left; lia]|split; [lia|left; lia]|lia]) En (fun _ _ => rowwise_id) (fun _ _ => rowwise_id) (fun _ => rowwise_id) (fun _ => rowwise_id)
    eq_refl ltac:(repeat (constructor; [reflexivity|]); constructor) Hb eq_refl ltac:(repeat constructor) Hb2 eq_refl ltac:(repeat constructor) ltac:(lia) ltac:(lia) ex66_same
    ltac:(intros [|[|k]] Hk; [split; reflexivity|split; reflexivity|cbn in Hk; lia])).
Qed.

Example C66_small_fallback_partial_ex_proof :
  same_cloud 3 0 3 [2] ex65_points 1 2 ex60_sizes ex60_points [1; 0] ex60_move /\
  forall active sactive pactive bactive warp time, device_samples active sactive pactive bactive warp ->
    forall vars ow ob dw db draws2 (f : nat -> R), exists net,
      mk_small [1; 8; 8; 8; 3] [1#1; 4#1]%Q [1#1; 4#1]%Q "PointConv" "cell average" vars ow ob = Ok net /\
      small_call_gpu active sactive pactive bactive warp time (1#1000) net (fun _ X => X) (fun _ X => X) dw db 1
        (Padded [1] 3 ex65_points) (Feat 1 (inl (Padded [1] 3 [[f 0]; [f 1]; [0%R]]))) [2] (fun out =>
        exists logits logits2, out = Feat 3 (inr logits) /\
          small_call GPU (1#1000) (find_neighbors_tf GPU) (compute_pdf_tf GPU) net (fun _ X => X) (fun _ X => X) dw db 3 draws2 2
            (Padded [2] 2 ex60_points) (Feat 1 (inl (Padded [2] 2 [[f 3]; [f 4]; [f 1]; [f 0]]))) ex60_sizes = Some (Ok (Feat 3 (inr logits2))) /\
          matrix 1 3 logits /\ matrix 2 3 logits2 /\ nth 0 logits [] = nth 1 logits2 []).
Proof.
  split; [exact ex66_same|]. intros active sactive pactive bactive warp time Hdev vars ow ob dw db draws2 f.
  destruct (ex66_inputs active warp active warp) as [Hb Hb2].
  destruct (ex66_small_net vars ow ob) as (net & En). exists net. split; [exact En|].
  assert (Hm : means "cell average" average_names) by (apply means_average; cbn; tauto).
  pose proof (proj2 (ex60_batches _ (or_intror (or_introl eq_refl)))) as Hb3.
  exact (C66_small_fallback_partial_proof active sactive pactive bactive warp time (1#1000) [1; 8; 8; 8; 3] [1#1; 4#1]%Q [1#1; 4#1]%Q "PointConv" TPT "cell average" vars ow ob net (fun _ X => X) (fun _ X => X) dw db
    1 3 ex65_points [2] [[f 0]; [f 1]; [0%R]] 0 2 2 ex60_points ex60_sizes [[f 3]; [f 4]; [f 1]; [f 0]] 3 draws2 1 [1; 0] ex60_move
    Hdev Hm ltac:(cbn; lia) (or_intror (or_introl (conj eq_refl eq_refl))) ltac:(discriminate) (fun _ => le_n 2) ltac:(intros [|[|i]] Hi; cbn in *; [split; [lia|left; lia]|split; [lia|right; reflexivity]|lia]) ltac:(repeat constructor) En (fun _ => rowwise_id) (fun _ => rowwise_id)
    Hb eq_refl ltac:(repeat constructor) Hb3 ex60_search eq_refl ltac:(repeat constructor) ltac:(intros r Er; injection Er as <-; exact ex66_one) ltac:(lia) ltac:(lia) ex66_same
    ltac:(intros [|[|k]] Hk; [reflexivity|reflexivity|cbn in Hk; lia])).
Qed.

Example C66_large_fallback_partial_ex_proof :
  same_cloud 3 0 3 [2] ex65_points 1 2 ex60_sizes ex60_points [1; 0] ex60_move /\
  forall active sactive pactive bactive warp time, device_samples active sactive pactive bactive warp ->
    forall iv sv bv dw db draws2 (f : nat -> R), exists net,
      mk_large [4; 8; 8; 3] [1#1; 4#1]%Q [1#1; 4#1]%Q "PointConv" "cell average" iv sv bv = Ok net /\
      large_call_gpu active sactive pactive bactive warp time (1#1000) net (fun _ _ X => X) (fun _ _ X => X) (fun _ X => X) (fun _ X => X) dw db 1
        (Padded [1] 3 ex65_points) (Feat 1 (inl (Padded [1] 3 [[1%R]; [1%R]; [f 0]]))) [2] (fun out =>
        exists logits logits2, out = Feat 3 (inr logits) /\
          large_call GPU (1#1000) (find_neighbors_tf GPU) (compute_pdf_tf GPU) net (fun _ _ X => X) (fun _ _ X => X) (fun _ X => X) (fun _ X => X) dw db 3 draws2 2
            (Padded [2] 2 ex60_points) (Feat 1 (inl (Padded [2] 2 [[f 3]; [f 4]; [1%R]; [1%R]]))) ex60_sizes = Some (Ok (Feat 3 (inr logits2))) /\
          matrix 1 3 logits /\ matrix 2 3 logits2 /\ nth 0 logits [] = nth 1 logits2 []).
Proof.
  split; [exact ex66_same|]. intros active sactive pactive bactive warp time Hdev iv sv bv dw db draws2 f.
  destruct (ex66_inputs active warp active warp) as [Hb Hb2].
  destruct (ex66_large_net iv sv bv) as (net & En). exists net. split; [exact En|].
  assert (Hm : means "cell average" average_names) by (apply means_average; cbn; tauto).
  pose proof (proj2 (ex60_batches _ (or_intror (or_introl eq_refl)))) as Hb3.
  exact (C66_large_fallback_partial_proof active sactive pactive bactive warp time (1#1000) [4; 8; 8; 3] [1#1; 4#1]%Q [1#1; 4#1]%Q "PointConv" TPT "cell average" iv sv bv net (fun _ _ X => X) (fun _ _ X => X) (fun _ X => X) (fun _ X => X) dw db
    1 3 ex65_points [2] [[1%R]; [1%R]; [f 0]] 0 2 2 ex60_points ex60_sizes [[f 3]; [f 4]; [1%R]; [1%R]] 3 draws2 1 [1; 0] ex60_move 1%R
    Hdev Hm ltac:(cbn; lia) (or_intror (or_introl (conj eq_refl eq_refl))) ltac:(discriminate) (fun _ => le_n 2) ltac:(intros [|[|i]] Hi; cbn in *; [split; [lia|left; lia]|split; [lia|left; lia]|lia]) En (fun _ _ => rowwise_id) (fun _ _ => rowwise_id) (fun _ => rowwise_id) (fun _ => rowwise_id)
    Hb eq_refl ltac:(repeat constructor) Hb3 ex60_search eq_refl ltac:(repeat constructor) ltac:(lia) ltac:(lia) ex66_same
    ltac:(intros [|[|k]] Hk; [split; reflexivity|split; reflexivity|cbn in Hk; lia])).
Qed.

