(** Proofs of the properties of the network of modelnet40.py with the CUDA
    operations (C65). The statements are copied into PropertiesCudaLarge.v. *)
From Coq Require Import String List Arith ZArith NArith QArith Reals Qreals Lia Lra Bool Permutation.
From Verif Require Import GpuBasis GpuPdf Cuda GpuGrid Tensor TensorFacts Spec SpecText TextFacts PointCloud SpecCloud PointCloudFacts QFacts Grid SpecGrid GridFacts
  Neighbors SpecNeighbors NeighborFacts NeighborProofs Neighborhood NeighborhoodFacts NeighborhoodProofs
  Sampling SpecSampling SamplingFacts SamplingProofs Hierarchy SpecHierarchy HierarchyFacts HierarchyProofs LevelFacts CloudProofs Pdf SpecPdf PdfFacts PdfProofs
  RTensor RTensorFacts Kernels KernelProofs Layers SpecLayers LayerFacts LayerLink LayerProofs ConvProofs Blocks SpecBlocks BlockFacts BlockProofs
  Classifier SpecClassifier ClassifierFacts LastLevelFacts ClassifierProofs LargeFacts LargeProofs GpuNeighbors GpuSampling
  CudaLayers SpecCudaLayers CudaLayerProofs CudaNetwork SpecCudaNetwork CudaHierarchyProofs CudaNetFacts CudaNetProofs.
Import ListNotations.
Local Open Scope nat_scope.

(** ** The blocks *)
Lemma block_gpu_ok active pactive bactive warp time eps name t cin cout pool v b bn r (up lo : batch) pin pout X (P : feat -> Prop) :
  device_ok active pactive bactive warp ->
  conv_named name t -> mk_block cin cout name (match pool with Some _ => true | None => false end) v = Ok b ->
  (forall k, keeps_shape (bn k)) -> cuda_channels (cout / 4) ->
  cuda_workable (scan_limit active warp) eps 3 r (fst up) (snd up) pin (fst lo) (snd lo) pout -> length (snd up) <= scan_limit active warp ->
  length (pts pin) = length (snd up) -> length (pts pout) = length (snd lo) ->
  match pool with Some s => s = r | None => up = lo end ->
  matrix (length (snd up)) cin X ->
  P (Feat cout (inr (block_formula (fun ci co r up lo X => cuda_formula t 1 16 (bv_conv v) ci co r up lo X) bn v cin cout r pool up lo X))) ->
  block_call_gpu active pactive bactive warp time eps b bn (Feat cin (inr X)) pin pout r (option_map (fun s => [s]) pool) P.
Proof.
  intros Hdev Hn Eb Hbn Hc W Hlim Lin Lout Hp HX HP.
  destruct (mk_block_inv _ _ _ _ _ _ Eb) as (B1 & B2 & B3 & B4 & B5).
  unfold block_formula in HP. cbv zeta in HP.
  set (n := length (snd up)) in *. set (m := length (snd lo)) in *. set (inner := cout / 4) in *.
  unfold block_call_gpu. set (X1 := activated (bn 1) (affine n cin inner (bv_dw v) (bv_db v) (activated (bn 0) X))) in *.
  assert (M0 : matrix n cin (activated (bn 0) X)) by (apply activated_keeps; auto).
  assert (M1 : matrix n inner X1) by (apply activated_keeps; [apply Hbn|apply affine_matrix]).
  exists (Feat inner (inr X1)). split.
  { rewrite activated_ok. cbn [bind]. rewrite (conv1x1_ok n cin inner (bv_dw v) (bv_db v)) by auto. cbn [bind]. apply activated_ok. }
  eapply (script_conv_gpu_ok active pactive bactive warp time eps name t 1 16 inner inner (bv_conv v) (bk_conv b) r up lo pin pout (Feat inner (inr X1)) X1 false);
    [exact Hdev|exact Hn|exact B2|exact W|exact Hlim|cbn; tauto|exact Hc|apply Hc|exact (given_rows n inner X1 pin M1 Lin)|apply (returned_rows pout m), cuda_formula_matrix|].
  eexists. split.
  { rewrite activated_ok. cbn [bind].
    apply (conv1x1_ok m inner cout (bv_uw v) (bv_ub v)); [exact B3|apply activated_keeps; [apply Hbn|apply cuda_formula_matrix]|exact Lout]. }
  rewrite B4. cbv zeta.
  match goal with |- if _ then _ else step (s2 <- _ ;; add_features ?f s2) _ => set (F := f) end.
  assert (Hskip : forall S1, matrix m cin S1 -> S1 = match pool with Some s => pooled s up lo cin X | None => X end ->
    step (s2 <- match bk_skip b with
                | None => Ok (Feat cin (inr S1))
                | Some o => t <- on_rows (fun X => leaky_layer (bn 3 X)) (Feat cin (inr S1)) ;; conv1x1_call o t pout false false
                end ;; add_features F s2) P).
  { intros S1 M2 E1. rewrite <- E1 in HP. eexists. split; [|exact HP].
    destruct B5 as [[-> Ek]|[Hne (o & Ek & Eo)]]; rewrite Ek; cbn [bind].
    - rewrite Nat.eqb_refl. apply (add_features_ok m); auto. apply affine_matrix.
    - destruct (Nat.eqb_spec cin cout); [contradiction|]. rewrite activated_ok. cbn [bind].
      rewrite (conv1x1_ok m cin cout (bv_sw v) (bv_sb v)) by (first [eassumption|apply activated_keeps; auto]). cbn [bind].
      apply (add_features_ok m); apply affine_matrix. }
  destruct pool as [s|].
  - subst s. cbn [option_map]. unfold max_pooling_gpu.
    eapply (local_pooling_runs active pactive bactive warp time eps 3 r (fst up) (snd up) pin (fst lo) (snd lo) pout [r] (Feat cin (inr X)) cin X false false red_max);
      [exact Hdev|exact W|now left|now apply (given_rows n)|exact red_max_perm|apply (returned_rows pout m), matrix_table|].
    apply Hskip; [apply matrix_table|reflexivity].
  - subst lo. apply Hskip; [exact HX|reflexivity].
Qed.

(** ** The loop below the first level *)
Section Large.
  Context (active : kernel -> nat) (pactive bactive warp : nat) (time : N).
  Context (eps : Q) (B : nat) (sizes : list nat) (h : hierarchy) (levels : list batch).
  Context (fs : list nat) (ps cs : list Q) (name mode : string) (t : conv_type) (iv : conv_vars) (sv bv : nat -> block_vars).
  Context (net : large_net) (bns bnb : nat -> nat -> mat -> mat).
  Context (Hdev : device_ok active pactive bactive warp).
  Context (Hnet : mk_large fs ps cs name mode iv sv bv = Ok net) (Hn : conv_named name t).
  Context (Hpos : forall i, i < length ps -> cuda_channels (nth i fs 0 / 4)) (Hbs : forall i k, keeps_shape (bns i k)) (Hbb : forall i k, keeps_shape (bnb i k)).
  Context (HL : length levels = S (length ps)) (Hcs : length cs = length ps).
  Context (Hrad : Forall (fun r => (0 < r)%Q) cs) (Hrad' : Forall (fun r => (0 < r)%Q) ps).
  Context (Hlev : forall i b, nth_error levels i = Some b ->
    exists q, nth_error (hclouds h) i = Some q /\ cuda_level (scan_limit active warp) eps B sizes b q).

  Notation conv v := (fun ci co r up lo X => cuda_formula t 1 16 (bv_conv v) ci co r up lo X).
  Notation strided := (fun i p up lo X => block_formula (conv (sv i)) (bns i) (sv i) (nth (i - 1) fs 0) (nth i fs 0) p (Some p) up lo X).
  Notation plain := (fun i c lo X => block_formula (conv (bv i)) (bnb i) (bv i) (nth i fs 0) (nth i fs 0) c None lo lo X).
  Notation loop := (large_loop_gpu active pactive bactive warp time eps net bns bnb h).

  Lemma cuda_level_length b q : cuda_level (scan_limit active warp) eps B sizes b q -> length (pts q) = length (snd b).
  Proof.
    intros Lo. pose proof (ic_len _ _ _ _ _ _ _ (cloud_is _ _ _ _ _ _ _ (cl_cloud _ _ _ _ _ _ Lo))) as Ll.
    pose proof (ic_pts _ _ _ _ _ _ _ (cloud_is _ _ _ _ _ _ _ (cl_cloud _ _ _ _ _ _ Lo))) as Lp. now rewrite Lp.
  Qed.
  Lemma deeper_gpu_ok (P : feat -> Prop) : forall k i X up, 0 < i -> i + k = length ps -> nth_error levels i = Some up ->
    matrix (length (snd up)) (nth (i - 1) fs 0) X ->
    (forall bottom, nth_error levels (length ps) = Some bottom ->
      matrix (length (snd bottom)) (nth (length ps - 1) fs 0) (deeper strided plain i (skipn i ps) (skipn i cs) up (skipn (S i) levels) X) ->
      P (Feat (nth (length ps - 1) fs 0) (inr (deeper strided plain i (skipn i ps) (skipn i cs) up (skipn (S i) levels) X)))) ->
    loop (seq i k) (Feat (nth (i - 1) fs 0) (inr X)) P.
  Proof using All.
    pose proof (mk_large_inv _ _ _ _ _ _ _ _ _ Hnet) as (N1 & N2 & N3 & N4 & N5 & N6 & N7 & N8 & N9 & N10). cbv zeta in *.
    induction k as [|k IH]; intros i X up Hi0 Hi Eu HX HP.
    - replace i with (length ps) in * by lia. cbn [seq large_loop_gpu]. rewrite (skipn_all2 ps) in HP by lia. cbn [deeper] in HP. apply (HP up); auto.
    - destruct (nth_error levels (S i)) as [lo|] eqn:Elo; [|apply nth_error_None in Elo; lia].
      destruct (Hlev i up Eu) as (pin & Ep & Lu). destruct (Hlev (S i) lo Elo) as (pout & Eq & Lo).
      destruct (nth_error cs i) as [c|] eqn:Ec; [|apply nth_error_None in Ec; lia].
      destruct (nth_error ps i) as [p|] eqn:Epp; [|apply nth_error_None in Epp; lia].
      destruct (N9 i ltac:(lia)) as (b1 & Eb1 & Mb1). destruct (N10 i ltac:(lia)) as (b2 & Eb2 & Mb2).
      change (seq i (S k)) with (i :: seq (S i) k). cbn [large_loop_gpu]. cbv zeta.
      exists pout. split.
      { unfold h_getitem. replace (Z.of_nat i + 1)%Z with (Z.of_nat (S i)) by lia. now rewrite py_nth_nat, Eq. }
      destruct (Nat.eqb_spec i 0); [lia|]. exists b1. split; [exact (item_ok _ _ _ Eb1)|].
      exists pin. split; [unfold h_getitem; now rewrite py_nth_nat, Ep|]. exists p. split; [rewrite N2; exact (item_ok _ _ _ Epp)|].
      assert (Pp : (0 < p)%Q) by (rewrite Forall_forall in Hrad'; exact (Hrad' p (nth_error_In _ _ Epp))).
      assert (Pc : (0 < c)%Q) by (rewrite Forall_forall in Hrad; exact (Hrad c (nth_error_In _ _ Ec))).
      pose proof (cuda_level_work _ eps B sizes up lo pin pout p Lu Lo Pp) as W1.
      pose proof (cuda_level_work _ eps B sizes lo lo pout pout c Lo Lo Pc) as W2.
      set (X1 := block_formula (conv (sv i)) (bns i) (sv i) (nth (i - 1) fs 0) (nth i fs 0) p (Some p) up lo X).
      assert (M1 : matrix (length (snd lo)) (nth i fs 0) X1) by apply mat_add_matrix.
      apply (block_gpu_ok active pactive bactive warp time eps name t (nth (i - 1) fs 0) (nth i fs 0) (Some p) (sv i) b1 (bns i) p up lo pin pout X _ Hdev Hn Mb1 (Hbs i) (Hpos i ltac:(lia))
        W1 (cl_limit _ _ _ _ _ _ Lu) (cuda_level_length _ _ Lu) (cuda_level_length _ _ Lo) eq_refl HX). fold X1.
      exists b2. split; [exact (item_ok _ _ _ Eb2)|]. exists c. split; [rewrite N3; exact (item_ok _ _ _ Ec)|].
      apply (block_gpu_ok active pactive bactive warp time eps name t (nth i fs 0) (nth i fs 0) None (bv i) b2 (bnb i) c lo lo pout pout X1 _ Hdev Hn Mb2 (Hbb i) (Hpos i ltac:(lia))
        W2 (cl_limit _ _ _ _ _ _ Lo) (cuda_level_length _ _ Lo) (cuda_level_length _ _ Lo) eq_refl M1).
      rewrite (skipn_nth ps i p Epp), (skipn_nth cs i c Ec), (skipn_nth levels (S i) lo Elo) in HP. cbn [deeper] in HP. fold X1 in HP.
      specialize (IH (S i) (block_formula (conv (bv i)) (bnb i) (bv i) (nth i fs 0) (nth i fs 0) c None lo lo X1) lo ltac:(lia) ltac:(lia) Elo).
      rewrite Nat.sub_succ, Nat.sub_0_r in IH. apply IH; [apply mat_add_matrix|exact HP].
  Qed.
End Large.

(** The call, for every postcondition. *)
Lemma large_runs :
  forall active sactive pactive bactive warp time eps B V points sizes feature_sizes pool_radii conv_radii name t mode iv sv bv net
         bns bnb bn drop dw db features (P : feat -> Prop),
    let L := length pool_radii in
    let chans := fun i => nth i feature_sizes 0 in
    let u1 := nth (length feature_sizes - 2) feature_sizes 0 in
    let u2 := nth (length feature_sizes - 1) feature_sizes 0 in
    let input := (valid_rows sizes V points, ids_of_sizes sizes) in
    device_samples active sactive pactive bactive warp ->
    cuda_input (scan_limit active warp) eps B V points sizes pool_radii mode -> 0 < L ->
    length conv_radii = L -> Forall (fun r => (0 < r)%Q) conv_radii -> conv_named name t ->
    (forall i, i < L -> cuda_channels (chans i / 4)) ->
    mk_large feature_sizes pool_radii conv_radii name mode iv sv bv = Ok net ->
    (forall i k, keeps_shape (bns i k)) -> (forall i k, keeps_shape (bnb i k)) ->
    (forall k, keeps_shape (bn k)) -> (forall k, keeps_shape (drop k)) ->
    length features = B * V -> Forall (fun row => length row = 1) features ->
    (forall out,
      (exists data, chain (next_level mode eps 3) (map (fun r => repeat r 3) pool_radii) (input :: data) /\
        let conv := fun v cin cout r up lo X => cuda_formula t 1 16 v cin cout r up lo X in
        let strided := fun i p up lo X => block_formula (conv (bv_conv (sv i))) (bns i) (sv i) (chans (i - 1)) (chans i) p (Some p) up lo X in
        let plain := fun i c lo X => block_formula (conv (bv_conv (bv i))) (bnb i) (bv i) (chans i) (chans i) c None lo lo X in
        let first := nth 0 data input in
        let c0 := nth 0 conv_radii 0%Q in
        let start := plain 0 c0 first (conv iv 1 (chans 0) c0 first first (rows_for V (snd first) features)) in
        let encoding := deeper strided plain 1 (tl pool_radii) (tl conv_radii) first (tl data) start in
        let logits := dense_head (fun X => drop 0 (activated (bn 0) X)) (activated (fun X => drop 1 (bn 1 X)))
          dw db B (chans (L - 1)) u1 u2 (averaged B (snd (last data input)) (chans (L - 1)) encoding) in
        matrix B u2 logits /\ out = Feat u2 (inr logits)) ->
      P out) ->
    large_call_gpu active sactive pactive bactive warp time eps net bns bnb bn drop dw db B
      (Padded [B] V points) (Feat 1 (inl (Padded [B] V features))) sizes P.
Proof.
  intros active sactive pactive bactive warp time eps B V points sizes fs ps cs name t mode iv sv bv net bns bnb bn drop dw db features P L chans u1 u2 input
    Hdev Hb HL Hc1 Hc2 Hn Hpos Hnet Hbs Hbb Hbn Hdr Hf1 Hf2 HP.
  pose proof (mk_large_inv _ _ _ _ _ _ _ _ _ Hnet) as (N1 & N2 & N3 & N4 & N5 & N6 & N7 & N8 & N9 & N10). cbv zeta in *. fold L in N1, N7, N8, N9, N10.
  unfold large_call_gpu. rewrite N2, N4.
  eapply script_hierarchy_gpu_ok; [exact Hdev|exact Hb|]. intros h data levels Hch Hil Hlen Hlev. fold input in levels. subst levels.
  assert (Hll : length (input :: data) = S L).
  { pose proof (chain_length _ _ _ Hch) as Y. rewrite map_length in Y. exact Y. }
  pose proof (ci_radii _ _ _ _ _ _ _ _ Hb) as Hps.
  destruct data as [|lo data]; [cbn in Hll; lia|].
  destruct (Hlev 1 lo eq_refl) as (pout & Eq & Lo).
  destruct cs as [|c0 cs]; [cbn in Hc1; lia|]. destruct ps as [|p0 ps]; [cbn in HL; lia|].
  pose proof (cuda_level_length active warp eps B sizes lo pout Lo) as Lp.
  destruct (N7 HL) as (ci & Eci & Mci). destruct (N10 0 HL) as (b0 & Eb0 & Mb0).
  assert (E0 : item fs 0 = Ok (chans 0)).
  { apply item_ok. apply nth_error_nth'. apply N8. lia. }
  rewrite E0 in Mci. pose proof (Hpos 0 HL) as P0.
  assert (P0' : 0 < chans 0).
  { destruct P0 as [P0 _]. destruct (chans 0); [cbn in P0; lia|lia]. }
  assert (Pc : (0 < c0)%Q) by now inversion Hc2.
  pose proof (cuda_level_work _ eps B sizes lo lo pout pout c0 Lo Lo Pc) as W.
  pose proof (cuda_given _ eps B sizes V lo pout 1 features Lo (proj1 (ci_sizes _ _ _ _ _ _ _ _ Hb))) as Hg.
  specialize (Hg ltac:(eapply Forall_impl; [|apply (ci_sizes _ _ _ _ _ _ _ _ Hb)]; cbn; lia) Hf1 Hf2).
  set (X0 := cuda_formula t 1 16 iv 1 (chans 0) c0 lo lo (rows_for V (snd lo) features)).
  assert (M0 : matrix (length (snd lo)) (chans 0) X0) by apply cuda_formula_matrix.
  rewrite N1. replace (seq 0 L) with (0 :: seq 1 (L - 1)) by (replace L with (S (L - 1)) at 2 by lia; reflexivity).
  cbn [large_loop_gpu]. cbv zeta. exists pout. split; [unfold h_getitem; change (Z.of_nat 0 + 1)%Z with (Z.of_nat 1); now rewrite py_nth_nat, Eq|].
  cbn [Nat.eqb]. exists ci. split; [exact (item_ok _ _ _ Eci)|]. exists c0. split; [rewrite N3; unfold item; now rewrite py_nth_nat|].
  rewrite Lp, (first_entries_all _ B V) by (auto; apply nonempty_length, Lo).
  eapply (script_conv_gpu_ok active pactive bactive warp time eps name t 1 16 1 (chans 0) iv ci c0 lo lo pout pout _ _ false);
    [exact (proj1 Hdev)|exact Hn|exact Mci|exact W|apply Lo|cbn; tauto|split; [lia|left; lia]|exact P0'|exact Hg|apply (returned_rows pout (length (snd lo))); exact M0|]. fold X0.
  exists b0. split; [exact (item_ok _ _ _ Eb0)|]. exists c0. split; [rewrite N3; unfold item; now rewrite py_nth_nat|].
  apply (block_gpu_ok active pactive bactive warp time eps name t (chans 0) (chans 0) None (bv 0) b0 (bnb 0) c0 lo lo pout pout X0 _ (proj1 Hdev) Hn Mb0 (Hbb 0) P0 W (cl_limit _ _ _ _ _ _ Lo) Lp Lp eq_refl M0).
  set (X1 := block_formula _ _ _ _ _ _ _ _ _ X0).
  assert (M1 : matrix (length (snd lo)) (chans (1 - 1)) X1) by apply mat_add_matrix.
  apply (deeper_gpu_ok active pactive bactive warp time eps B sizes h (input :: lo :: data) fs (p0 :: ps) (c0 :: cs) name mode t iv sv bv net bns bnb (proj1 Hdev) Hnet Hn Hpos Hbs Hbb Hll Hc1 Hc2 Hps Hlev
    _ (L - 1) 1 X1 lo ltac:(lia) ltac:(unfold L in *; lia) eq_refl M1). intros bottom Ebot M.
  fold L in Ebot, M |- *. cbn [skipn] in M |- *.
  assert (Eb : last (lo :: data) input = bottom).
  { pose proof (last_nth (lo :: data) input) as H1. replace (length (lo :: data)) with L in H1 by (cbn [length] in Hll |- *; lia).
    assert (X : Some (last (lo :: data) input) = Some bottom) by (rewrite <- H1; exact Ebot). now injection X. }
  destruct (Hlev _ _ Ebot) as (qb & Eqb & Lb).
  pose proof (cuda_level_length active warp eps B sizes bottom qb Lb) as Lq.
  pose proof (averaged_ok eps _ _ B qb _ _ (cl_cloud _ _ _ _ _ _ Lb) (given_rows _ _ _ qb M Lq) (cl_all _ _ _ _ _ _ Lb)) as Q2.
  apply bind_ok in Q2. destruct Q2 as (tt' & Q2 & Q3).
  eexists. split.
  { unfold h_getitem. rewrite (py_nth_last _ L qb) by (auto; rewrite Hlen; exact Hll). cbn [bind].
    rewrite Q2. cbn [bind]. rewrite Q3. cbn [bind]. rewrite N5, N6.
    unfold on_rows at 1. cbn [frows fch bind]. rewrite (dense_ok B) by (apply Hdr, (activated_keeps (bn 0) (Hbn 0)), matrix_table). cbn [bind].
    unfold on_rows. cbn [frows fch bind].
    rewrite (dense_ok B) by (apply (activated_keeps (fun X => drop 1 (bn 1 X))); [intros n c X HX; apply Hdr, Hbn, HX|apply affine_matrix]). reflexivity. }
  apply HP. exists (lo :: data). split; [exact Hch|]. cbn [nth tl]. fold X0. rewrite Eb. split; [apply affine_matrix|]. reflexivity.
Qed.

(** C65. The logits of the residual network with the CUDA operations, for every
    device and every interleaving of the threads: those of C59, with a
    hierarchy as in C64 and the convolutions of C55. *)
Lemma C65_large_partial_proof :
  forall active sactive pactive bactive warp time eps B V points sizes feature_sizes pool_radii conv_radii name t mode iv sv bv net
         bns bnb bn drop dw db features,
    let L := length pool_radii in
    let chans := fun i => nth i feature_sizes 0 in
    let u1 := nth (length feature_sizes - 2) feature_sizes 0 in
    let u2 := nth (length feature_sizes - 1) feature_sizes 0 in
    let input := (valid_rows sizes V points, ids_of_sizes sizes) in
    device_samples active sactive pactive bactive warp ->
    cuda_input (scan_limit active warp) eps B V points sizes pool_radii mode -> 0 < L ->
    length conv_radii = L -> Forall (fun r => (0 < r)%Q) conv_radii -> conv_named name t ->
    (forall i, i < L -> cuda_channels (chans i / 4)) ->
    mk_large feature_sizes pool_radii conv_radii name mode iv sv bv = Ok net ->
    (forall i k, keeps_shape (bns i k)) -> (forall i k, keeps_shape (bnb i k)) ->
    (forall k, keeps_shape (bn k)) -> (forall k, keeps_shape (drop k)) ->
    length features = B * V -> Forall (fun row => length row = 1) features ->
    large_call_gpu active sactive pactive bactive warp time eps net bns bnb bn drop dw db B
      (Padded [B] V points) (Feat 1 (inl (Padded [B] V features))) sizes (fun out =>
      exists data, chain (next_level mode eps 3) (map (fun r => repeat r 3) pool_radii) (input :: data) /\
        let conv := fun v cin cout r up lo X => cuda_formula t 1 16 v cin cout r up lo X in
        let strided := fun i p up lo X => block_formula (conv (bv_conv (sv i))) (bns i) (sv i) (chans (i - 1)) (chans i) p (Some p) up lo X in
        let plain := fun i c lo X => block_formula (conv (bv_conv (bv i))) (bnb i) (bv i) (chans i) (chans i) c None lo lo X in
        let first := nth 0 data input in
        let c0 := nth 0 conv_radii 0%Q in
        let start := plain 0 c0 first (conv iv 1 (chans 0) c0 first first (rows_for V (snd first) features)) in
        let encoding := deeper strided plain 1 (tl pool_radii) (tl conv_radii) first (tl data) start in
        let logits := dense_head (fun X => drop 0 (activated (bn 0) X)) (activated (fun X => drop 1 (bn 1 X)))
          dw db B (chans (L - 1)) u1 u2 (averaged B (snd (last data input)) (chans (L - 1)) encoding) in
        matrix B u2 logits /\ out = Feat u2 (inr logits)).
Proof. intros. eapply large_runs; eauto. Qed.

(** One cloud and two levels; the second block widens the features from 4 to
    8. *)
Example C65_large_partial_ex_proof :
  forall active sactive pactive bactive warp time, device_samples active sactive pactive bactive warp ->
    cuda_input (scan_limit active warp) (1#1000) 1 3 ex65_points [2] [1#1; 4#1]%Q "poisson disk" /\
    forall iv sv bv dw db f, exists net,
      mk_large [4; 8; 8; 3] [1#1; 4#1]%Q [1#1; 4#1]%Q "MCConv" "poisson disk" iv sv bv = Ok net /\
      large_call_gpu active sactive pactive bactive warp time (1#1000) net (fun _ _ X => X) (fun _ _ X => X) (fun _ X => X) (fun _ X => X) dw db 1
        (Padded [1] 3 ex65_points) (Feat 1 (inl (Padded [1] 3 (table 3 1 f)))) [2] (fun out =>
        exists logits, out = Feat 3 (inr logits) /\ length logits = 1).
Proof.
  intros active sactive pactive bactive warp time Hdev. pose proof (ex65_input active warp _ (or_introl eq_refl)) as Hb.
  split; [exact Hb|]. intros iv sv bv dw db f.
  destruct (ex59_net _ _ "poisson disk" iv sv bv (or_intror (or_introl eq_refl))) as (net & En). exists net. split; [exact En|].
  assert (Hk : keeps_shape (fun X => X)) by (intros n c X HX; exact HX).
  apply (large_runs active sactive pactive bactive warp time _ _ _ _ _ [4; 8; 8; 3] _ _ _ TMC _ iv sv bv net (fun _ _ X => X) (fun _ _ X => X) (fun _ X => X) (fun _ X => X) dw db (table 3 1 f) _ Hdev
    Hb ltac:(cbn; lia) eq_refl ltac:(repeat (constructor; [reflexivity|]); constructor) (or_introl (conj eq_refl eq_refl))
    ltac:(intros [|[|i]] Hi; cbn in *; [split; [lia|left; lia]|split; [lia|left; lia]|lia]) En (fun _ _ => Hk) (fun _ _ => Hk) (fun _ => Hk) (fun _ => Hk)
    (proj1 (matrix_table 3 1 f)) (proj2 (matrix_table 3 1 f))).
  intros out (data & _ & [HM _] & ->). eexists. split; [reflexivity|]. exact HM.
Qed.
