(** Densities and projections with the CUDA operations. *)
From Coq Require Import String List Arith ZArith NArith QArith Qround Qreals Reals Lia Lra Bool Permutation.
From Verif Require Import Tensor TensorFacts Spec PointCloud SpecCloud History PointCloudFacts QFacts Grid SpecGrid GridFacts Neighbors SpecNeighbors NeighborFacts NeighborProofs Neighborhood NeighborhoodFacts
  SamplingFacts SamplingProofs Pdf SpecPdf PdfFacts PdfProofs RTensor RTensorFacts Layers SpecLayers LayerFacts LayerLink
  Cuda CudaFacts AddFacts MemFacts CudaUpdate GpuGrid GpuGridFacts GpuNeighbors GpuNeighborFacts
  GpuSampling GpuSampleFacts GpuSampleProofs GpuBasis GpuBasisFacts SpecGpuBasis GpuBasisProofs GpuPdf SpecGpuPdf GpuPdfFacts GpuPdfProofs
  CudaLayers SpecCudaLayers CudaLayerFacts.
Import ListNotations.
Local Open Scope nat_scope.

Section Density.
  Context (active : kernel -> nat) (pactive bactive warp : nat) (time : N) (eps : Q).
  Context (Hdev : device_ok active pactive bactive warp).
  Context (D : nat) (r : Q) (rows : list point) (ids : list nat) (B : nat) (g : grid).
  Context (HD : 2 <= D <= 6) (Hr : (0 < r)%Q) (Hne : ids <> []).
  Context (G : is_gpu_grid eps D rows ids B (repeat r D) g) (Hlast : D <= 3 \/ (3 <= nth (D - 1) (gnc g) 0)%Z).
  Context (bw : R) (Hbw : (0 < bw)%R).

  Let dens := density D (repeat bw D) (repeat r D) rows ids.

  Lemma near_self k : k < length ids ->
    near_points D r rows ids (gspts g) (gsbids g) k = close_points D (repeat r D) rows ids (nth k (gsidx g) 0).
  Proof.
    intros Hk. unfold near_points, close_points. rewrite (gg_spts_nth _ _ _ _ _ _ _ G k Hk), (gg_sbids_nth _ _ _ _ _ _ _ G k Hk).
    rewrite (nth_repeat_lt r) by lia. reflexivity.
  Qed.

  Lemma density_self cp n (P : list R -> Prop) : cuda_nbh D r rows ids (gspts g) (gsbids g) g cp n ->
    P (map (fun k => (ratio ^ D * dens (nth k (gsidx g) 0%nat))%R) (seq 0 (length ids))) ->
    compute_pdf_wrapper pactive n (repeat bw D) KConstant P.
  Proof.
    intros [Hp Eg Es Er Esh Hd Eo Hlt] HP. pose proof (gg_cloud _ _ _ _ _ _ _ G) as C.
    pose proof (sbids_len _ _ _ _ _ _ _ G) as Lb. pose proof (gg_spts_length _ _ _ _ _ _ _ G) as Ls.
    rewrite Lb in Hd, Hlt.
    assert (Hne0 : 0 < length ids) by (destruct ids; [congruence|cbn; lia]).
    assert (Hends : length (rdata (nranges n)) = length ids) by apply Hd.
    unfold compute_pdf_wrapper. destruct Hdev as [_ Ha _ _ _]. apply (density_gpu _ _ _ _ _ _ _ D); auto.
    - intros E0. rewrite E0 in Hends. cbn in Hends. lia.
    - discriminate.
    - now rewrite map_length, repeat_length.
    - now rewrite map_length, Er, repeat_length.
    - unfold sorted_tensor. rewrite Eg, (ic_dim _ _ _ _ _ _ _ C), Ls, Hends. apply ttab_tensor.
    - apply delimits_ranged; [now rewrite Hends|lia].
    - rewrite Hends. eapply Forall_impl; [|exact Hlt]. cbv beta. tauto.
    - rewrite Hends. match goal with |- P ?l => replace l with (map (fun k => (ratio ^ D * dens (nth k (gsidx g) 0%nat))%R) (seq 0 (length ids))); [exact HP|] end.
      apply map_ext_in. intros k Hk. apply in_seq in Hk. symmetry. unfold cuda_density.
      transitivity (sum_over (rows_of_center (nnbs n) k) (fun m => (fun q => ratio ^ D / rprod (repeat bw D) *
        SpecPdf.kernel D (repeat bw D) (repeat r D) (nth (fst (to_original g q)) rows []) (nth k (gspts g) []))%R (nth m (nnbs n) (0, 0)))).
      + apply sum_over_ext. intros m Hm. apply filter_In in Hm as (Hm & Ek). apply in_seq in Hm. apply Nat.eqb_eq in Ek.
        rewrite Forall_forall in Hlt. destruct (Hlt (nth m (nnbs n) (0, 0)) (nth_In (nnbs n) (0, 0) (proj2 Hm))) as (F1 & F2).
        transitivity (cuda_kernel D (fun d => nth d (map Rinv (repeat bw D)) 0%R) (fun d => nth d (map (fun r => / Q2R r)%R (repeat r D)) 0%R)
          (fun p d => Q2R (nth d (nth p (gspts g) []) 0%Q)) (fst (nth m (nnbs n) (0, 0))) k).
        * unfold cuda_kernel. apply product_over_ext. intros d Hdd. apply in_seq in Hdd. unfold inverse_bandwidth, sorted_tensor.
          rewrite Eg, Er, (ic_dim _ _ _ _ _ _ _ C), Ls. rewrite !tget_ttab; [reflexivity| |].
          -- apply in_shape_cons. split; [lia|]. apply in_shape_cons. split; [lia|constructor].
          -- apply in_shape_cons. split; [lia|]. apply in_shape_cons. split; [lia|constructor].
        * rewrite (cuda_kernel_ratio D (repeat bw D) (repeat r D) (fun p => nth p (gspts g) [])).
          -- rewrite (gg_spts_nth _ _ _ _ _ _ _ G _ F1). unfold to_original. cbn [fst]. unfold Rdiv. ring.
          -- apply repeat_length.
          -- apply Forall_forall. intros x Hx. apply repeat_spec in Hx. now subst.
          -- apply repeat_length.
          -- apply Forall_forall. intros x Hx. apply repeat_spec in Hx. now subst.
      + rewrite (rows_pairs (nnbs n) k (fun q => ratio ^ D / rprod (repeat bw D) *
          SpecPdf.kernel D (repeat bw D) (repeat r D) (nth (fst (to_original g q)) rows []) (nth k (gspts g) []))%R).
        transitivity (rsum (map (fun q => ratio ^ D / rprod (repeat bw D) * SpecPdf.kernel D (repeat bw D) (repeat r D) (nth (fst q) rows []) (nth k (gspts g) []))%R
          (filter (fun q => snd q =? k) (norig n)))).
        { rewrite Eo. clear. induction (nnbs n) as [|q l IH]; [reflexivity|]. cbn [map filter]. change (snd (to_original g q)) with (snd q).
          destruct (snd q =? k); cbn [map]; [|exact IH]. unfold rsum in *. cbn [fold_right]. now rewrite IH. }
        rewrite (rsum_perm _ _ (Permutation_map _ (pairs_center D r rows ids (gspts g) (gsbids g) n Hp k ltac:(lia)))), map_map.
        rewrite near_self by lia. unfold dens, density. rewrite (rprod_nth (repeat bw D) D) by apply repeat_length.
        rewrite (gg_spts_nth _ _ _ _ _ _ _ G k) by lia. cbn [fst].
        rewrite <- (map_map (fun q => SpecPdf.kernel D (repeat bw D) (repeat r D) (nth q rows []) (nth (nth k (gsidx g) 0) rows [])) (Rmult (ratio ^ D / product_over (seq 0 D) (fun d => nth d (repeat bw D) 0)))%R).
        rewrite rsum_scale. unfold Rdiv, sum_over, rsum. ring.
  Qed.

  Lemma sorted_gpu : exists cp, sorted_cloud g = Ok cp /\ is_cloud GPU eps D (gspts g) (gsbids g) B cp.
  Proof.
    pose proof (gg_cloud _ _ _ _ _ _ _ G) as C.
    pose proof (sbids_len _ _ _ _ _ _ _ G) as Lb. pose proof (gg_spts_length _ _ _ _ _ _ _ G) as Lp.
    assert (Hids : Forall (fun b => b < B) (gsbids g)).
    { rewrite (gg_sbids _ _ _ _ _ _ _ G). apply Forall_map, Forall_forall. intros i Hi. apply (gg_id_lt _ _ _ _ _ _ _ G).
      apply (Permutation_in _ (gg_sidx_perm _ _ _ _ _ _ _ G)), in_seq in Hi. lia. }
    assert (Hb : 0 < B). { pose proof (ic_ids _ _ _ _ _ _ _ C) as F. destruct ids; [congruence|]. inversion F; subst. lia. }
    exists (seg D (gspts g) (gsbids g) B). split.
    { unfold sorted_cloud, init. rewrite (ic_dim _ _ _ _ _ _ _ C), (ic_bsize _ _ _ _ _ _ _ C). cbn. rewrite Lb, Lp, Nat.eqb_refl. reflexivity. }
    apply cloud_is, seg_cloud; auto; try lia. rewrite (gg_spts _ _ _ _ _ _ _ G). apply Forall_map, Forall_forall. intros i Hi.
    pose proof (ic_rows _ _ _ _ _ _ _ C) as F. rewrite Forall_forall in F. apply F, nth_In. rewrite (gg_len _ _ _ _ _ _ _ G). apply (Permutation_in _ (gg_sidx_perm _ _ _ _ _ _ _ G)), in_seq in Hi. lia.
  Qed.

  Lemma get_pdf_gpu_ok crows cids cp n (P : dnbh -> list R -> Prop) :
    cuda_nbh D r rows ids crows cids g cp n -> nequal n = false -> dim cp = D -> length ids <= scan_limit active warp ->
    (let v := map (fun q => (ratio ^ D * dens (fst q))%R) (norig n) in P (DNbh n (Some v)) v) ->
    get_pdf_gpu active pactive warp time (DNbh n None) (repeat bw D) KConstant false P.
  Proof.
    intros Hn Eq Ed Hlen HP. unfold get_pdf_gpu, compute_pdf_gpu. cbn [dpdf dn]. rewrite Eq, (cn_sampled _ _ _ _ _ _ _ _ _ Hn), Ed.
    rewrite (cn_grid _ _ _ _ _ _ _ _ _ Hn), (cn_radii _ _ _ _ _ _ _ _ _ Hn).
    replace (rcast D (repeat bw D)) with (repeat bw D) by (symmetry; apply all_axes_repeat).
    destruct sorted_gpu as (sp & Esp & Cs). pose proof (sbids_len _ _ _ _ _ _ _ G) as Lb.
    eapply (neighborhood_gpu_ok active pactive bactive warp time eps Hdev D r rows ids B g HD Hr Hne G Hlast eps (gspts g) (gsbids g) B sp None); auto.
    - intros E. rewrite E in Lb. cbn in Lb. destruct ids; [congruence|discriminate].
    - apply (ic_ids _ _ _ _ _ _ _ Cs).
    - now rewrite Lb.
    - intros m Hm _. apply (density_self sp m); [exact Hm|]. eexists. split.
      + assert (Lt : Forall (fun i => i < length (map (fun k => (ratio ^ D * dens (nth k (gsidx g) 0%nat))%R) (seq 0 (length ids)))) (map fst (nnbs n))).
        { rewrite map_length, seq_length. apply Forall_map. eapply Forall_impl; [|exact (cn_lt _ _ _ _ _ _ _ _ _ Hn)]. cbv beta. tauto. }
        rewrite (gather_map _ _ 0%R Lt). reflexivity.
      + eexists. split; [reflexivity|].
        match goal with |- P (DNbh n (Some ?l)) ?l => replace l with (map (fun q => (ratio ^ D * dens (fst q))%R) (norig n)); [exact HP|] end.
        rewrite (cn_orig _ _ _ _ _ _ _ _ _ Hn), !map_map. apply map_ext_in. intros q Hq. unfold to_original. cbn [fst].
        pose proof (cn_lt _ _ _ _ _ _ _ _ _ Hn) as F. rewrite Forall_forall in F. destruct (F q Hq) as (F1 & _).
        symmetry. now rewrite QFacts.nth_map_seq by exact F1.
  Qed.
End Density.

(** ** The projection *)
Lemma basis_proj_op_weaken active basis feats nbs ends (P Q : ten -> Prop) : (forall t, P t -> Q t) ->
  basis_proj_op active basis feats nbs ends P -> basis_proj_op active basis feats nbs ends Q.
Proof.
  intros H (M & K & N & C & H1 & H2 & H3 & H4 & H5 & H6). exists M, K, N, C. do 5 (split; [assumption|]).
  unfold basis_proj_gpu in *. cbv zeta in *. intros shared L F. destruct (H6 shared L F) as (Hb & Hrun). split; [exact Hb|].
  eapply every_run_weaken; [|exact Hrun]. cbv beta. intros m Hm. apply H. exact Hm.
Qed.
Lemma projection_step bactive D r rows ids crows cids g cp n basis feats K C wf (P : ten -> Prop) :
  0 < bactive -> SpecGpuBasis.supported K C -> cids <> [] -> cuda_nbh D r rows ids crows cids g cp n ->
  is_tensor [length (norig n); K] basis -> is_tensor [length ids; C] feats ->
  basis_proj GPU basis feats n = Ok wf -> P wf ->
  basis_proj_wrapper bactive basis feats n P.
Proof.
  intros Ha Hs Hc Hn Tb Tf E HP. pose proof (cn_pairs _ _ _ _ _ _ _ _ _ Hn) as Hp. unfold basis_proj_wrapper.
  eapply basis_proj_op_weaken; [|apply (C46_agree_proof bactive GPU n basis feats (length ids) C K); auto].
  - intros t Et. rewrite E in Et. injection Et as <-. exact HP.
  - intros E0. pose proof (po_num _ _ _ _ _ _ _ Hp) as L. rewrite E0 in L. destruct cids; [congruence|discriminate].
  - rewrite (po_num _ _ _ _ _ _ _ Hp). apply (cn_delimits _ _ _ _ _ _ _ _ _ Hn).
  - symmetry. apply (po_snd _ _ _ _ _ _ _ Hp).
  - pose proof (pairs_fst _ _ _ _ _ _ _ Hp) as F. rewrite Forall_map in F. exact F.
Qed.
