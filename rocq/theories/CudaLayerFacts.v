(** Neighborhoods, densities and projections with the CUDA operations. *)
From Coq Require Import String List Arith ZArith NArith QArith Qround Qreals Reals Lia Lqa Bool Permutation.
From Verif Require Import Tensor TensorFacts Spec PointCloud SpecCloud History PointCloudFacts QFacts Grid SpecGrid GridFacts Neighbors SpecNeighbors NeighborFacts NeighborProofs Neighborhood NeighborhoodFacts
  SamplingFacts SamplingProofs Pdf SpecPdf PdfFacts RTensor RTensorFacts Layers SpecLayers LayerFacts LayerLink
  Cuda CudaFacts AddFacts MemFacts CudaUpdate GpuGrid GpuGridFacts GpuGridProofs GpuScan SpecGpu GpuNeighbors GpuCountFacts SlotFacts GpuStoreFacts GpuNeighborFacts GpuRangeFacts GpuGeometry GpuSearchFacts GpuNeighborProofs
  GpuSampling SpecGpuSampling GpuSampleFacts GpuSampleProofs GpuBasis GpuBasisFacts SpecGpuBasis GpuBasisProofs GpuPdf SpecGpuPdf GpuPdfFacts GpuPdfProofs
  CudaLayers SpecCudaLayers.
Import ListNotations.
Local Open Scope nat_scope.

Lemma nth_repeat_lt' {A} (x d : A) n k : k < n -> nth k (repeat x n) d = x.
Proof. apply nth_repeat_lt. Qed.

(** ** The grid *)
Lemma last_cells eps D r rows ids B g :
  (0 < r)%Q -> 2 <= D -> is_gpu_grid eps D rows ids B (repeat r D) g ->
  D <= 3 \/ ((0 <= eps)%Q /\ (eps <= flt_max)%Q /\
    exists i j, i < length ids /\ j < length ids /\ nth i ids 0 = nth j ids 0 /\
      ((2 # 1) * r < xc rows i (D - 1) - xc rows j (D - 1) + (2 # 1) * eps)%Q) ->
  D <= 3 \/ (3 <= nth (D - 1) (gnc g) 0)%Z.
Proof.
  intros Hr HD G [H|(He & Hf & i & j & Hi & Hj & Eb & Hx)]; [now left|]. right.
  pose proof (gg_cloud _ _ _ _ _ _ _ G) as C.
  assert (N : cells_needed eps (repeat r D) rows ids (D - 1) (nth (D - 1) (gnc g) 0%Z)).
  { rewrite (gg_nc _ _ _ _ _ _ _ G). eapply num_cells_needed; try lia;
      first [apply (gg_len _ _ _ _ _ _ _ G)|apply (ic_ids _ _ _ _ _ _ _ C)|exact He|exact Hf|apply (gg_cells_pos _ _ _ _ _ _ _ G)
            |apply (gg_min _ _ _ _ _ _ _ G)|apply (gg_max _ _ _ _ _ _ _ G)]. }
  destruct N as ((N1 & N2) & _). specialize (N2 i j Hi Hj Eb). rewrite (nth_repeat_lt r) in N2 by lia.
  destruct (Z_lt_le_dec (nth (D - 1) (gnc g) 0%Z) 3%Z) as [L|L]; [|exact L]. exfalso.
  set (z := nth (D - 1) (gnc g) 0%Z) in *.
  assert (Hz : (inject_Z z * r <= (2 # 1) * r)%Q).
  { apply Qmult_le_compat_r; [|lra]. change (2 # 1)%Q with (inject_Z 2). rewrite <- Zle_Qle. lia. }
  lra.
Qed.

(** ** The neighbor lists *)
Lemma sum_scaled (f : nat -> Q) r l : (0 < r)%Q ->
  (fold_right Qplus 0 (map (fun d => let x := f d / r in x * x) l) * (r * r) == fold_right Qplus 0 (map (fun d => f d * f d) l))%Q.
Proof.
  intros Hr. induction l as [|d l IH]; [cbn; lra|]. cbn [map fold_right]. rewrite <- IH. cbv zeta. field. lra.
Qed.
Lemma inside_near D r rows ids crows cids j i : (0 < r)%Q ->
  inside_ellipsoid D (repeat r D) rows ids crows cids j i <-> near D r rows ids crows cids j i.
Proof.
  intros Hr. unfold inside_ellipsoid, near.
  match goal with |- (_ /\ _ /\ _ /\ (fold_right Qplus _ ?l < 1)%Q) <-> _ => assert (E : l =
    map (fun d => let x := (nth d (nth j rows []) 0 - nth d (nth i crows []) 0) / r in x * x)%Q (seq 0 D)) end.
  { apply map_ext_in. intros d Hd. apply in_seq in Hd. rewrite (nth_repeat_lt r) by lia. reflexivity. }
  rewrite E. pose proof (sum_scaled (fun d => nth d (nth j rows []) 0 - nth d (nth i crows []) 0)%Q r (seq 0 D) Hr) as Hs. clear E.
  match goal with |- (_ /\ _ /\ _ /\ (?l < 1)%Q) <-> _ => assert (S' : (l * (r * r) == dist2 D (nth j rows []) (nth i crows []))%Q) by exact Hs; clear Hs;
    generalize dependent l end. intros s S'.
  assert (Hrr : (0 < r * r)%Q) by nra.
  split; intros (H1 & H2 & H3 & H4); (split; [exact H1|]; split; [exact H2|]; split; [exact H3|]).
  - rewrite <- S'. apply (Qmult_lt_r _ _ (r * r)) in H4; [|exact Hrr]. lra.
  - rewrite <- S' in H4. apply (Qmult_lt_r _ _ (r * r)); [exact Hrr|]. lra.
Qed.

Lemma to_original_gpu eps D rows ids B cells g r crows cids nbs :
  is_gpu_grid eps D rows ids B cells g ->
  NoDup nbs -> (forall j i, In (j, i) nbs <-> near D r (gspts g) (gsbids g) crows cids j i) ->
  NoDup (map (to_original g) nbs) /\
  forall j i, In (j, i) (map (to_original g) nbs) <-> near D r rows ids crows cids j i.
Proof.
  intros G Hn Hin. pose proof (sbids_len _ _ _ _ _ _ _ G) as Lb.
  assert (Ho : forall j i, j < length ids -> (near D r (gspts g) (gsbids g) crows cids j i <-> near D r rows ids crows cids (nth j (gsidx g) 0) i)).
  { intros j i Hj. unfold near. rewrite Lb, (gg_spts_nth _ _ _ _ _ _ _ G j Hj), (gg_sbids_nth _ _ _ _ _ _ _ G j Hj).
    pose proof (gg_sidx_lt _ _ _ _ _ _ _ G j Hj). tauto. }
  assert (Hb : forall j i, In (j, i) nbs -> j < length ids).
  { intros j i H. apply Hin in H as (H & _). now rewrite Lb in H. }
  split.
  - apply NoDup_map_inj_in; [|exact Hn]. intros [j i] [j' i'] H H' E. inversion E as [[E1 E2]].
    f_equal. apply (NoDup_nth (gsidx g) 0); try rewrite (gg_sidx_length _ _ _ _ _ _ _ G); eauto.
    apply (gg_sidx_NoDup _ _ _ _ _ _ _ G).
  - intros j i. rewrite in_map_iff. split.
    + intros ([k i'] & E & H). inversion E; subst. apply Ho; [eauto|]. now apply Hin.
    + intros H. assert (Hj : j < length ids) by apply H.
      assert (Hjin : In j (gsidx g)) by (apply (Permutation_in _ (Permutation_sym (gg_sidx_perm _ _ _ _ _ _ _ G))), in_seq; lia).
      apply (In_nth _ _ 0) in Hjin as (k & Hk & Ek). rewrite (gg_sidx_length _ _ _ _ _ _ _ G) in Hk.
      exists (k, i). split; [unfold to_original; cbn; now rewrite Ek|].
      apply Hin. apply Ho; [exact Hk|]. now rewrite Ek.
Qed.

(** What a search leaves in a neighborhood of the centers [cp]. *)
Record cuda_nbh (D : nat) (r : Q) (rows : list point) (ids : list nat) (crows : list point) (cids : list nat)
  (g : grid) (cp : pc) (n : nbh) : Prop := {
  cn_pairs : pairs_of D r rows ids crows cids n;
  cn_grid : ngrid n = g;
  cn_sampled : nsampled n = cp;
  cn_radii : nradii n = repeat r D;
  cn_shape : rshape (nranges n) = [length cids];
  cn_delimits : delimits (rdata (nranges n)) (nnbs n) (length cids);
  cn_orig : norig n = map (to_original g) (nnbs n);
  cn_lt : Forall (fun q => fst q < length ids /\ snd q < length cids) (nnbs n) }.

Section Device.
  Context (active : kernel -> nat) (pactive bactive warp : nat) (time : N) (eps : Q).
  Context (Hdev : device_ok active pactive bactive warp).
  Context (D : nat) (r : Q) (rows : list point) (ids : list nat) (B : nat) (g : grid).
  Context (HD : 2 <= D <= 6) (Hr : (0 < r)%Q) (Hne : ids <> []).
  Context (G : is_gpu_grid eps D rows ids B (repeat r D) g) (Hlast : D <= 3 \/ (3 <= nth (D - 1) (gnc g) 0)%Z).

  Lemma valid_repeat : valid_sizes D (repeat r D).
  Proof.
    split; rewrite all_dims_repeat; [apply repeat_length|]. apply Forall_forall. intros x Hx. apply repeat_spec in Hx. now subst.
  Qed.

  Lemma neighborhood_gpu_limit ceps crows cids CB cp sample k (P : nbh -> Prop) :
    match sample with Some p => Ok p | None => sorted_cloud g end = Ok cp ->
    cids <> [] -> is_cloud GPU ceps D crows cids CB cp -> Forall (fun b => b < B) cids ->
    length cids <= scan_limit active warp ->
    k = 0 \/ few k D (repeat r D) rows ids crows cids ->
    (forall n, cuda_nbh D r rows ids crows cids g cp n -> nequal n = (match sample with None => true | Some _ => false end) -> P n) ->
    neighborhood_gpu active warp time g (repeat r D) sample k P.
  Proof.
    intros Es Hc C Hids Hlen Hk HP. unfold neighborhood_gpu. cbv zeta. rewrite (ic_dim _ _ _ _ _ _ _ (gg_cloud _ _ _ _ _ _ _ G)).
    change (bcast D (repeat r D)) with (all_dims D (repeat r D)). rewrite all_dims_repeat.
    exists cp. split; [exact Es|]. destruct Hdev as [Ha _ _ Hw Hq].
    assert (Eb : bcast D (repeat r D) = repeat r D) by apply all_dims_repeat.
    apply search_grid with (eps := eps) (D := D) (rows := rows) (ids := ids) (B := B) (cs := repeat r D) (ceps := ceps) (crows := crows) (cids := cids) (CB := CB);
      auto using valid_repeat.
    - now rewrite Eb.
    - intros d _. apply Qle_refl.
    - now rewrite Eb.
    - intros ends nbs (H1 & H2 & H3). rewrite Eb in H3.
      assert (H3' : forall j i, In (j, i) nbs <-> near D r (gspts g) (gsbids g) crows cids j i).
      { intros j i. rewrite H3. now apply inside_near. }
      pose proof (sbids_len _ _ _ _ _ _ _ G) as Lb.
      assert (Lt : Forall (fun q => fst q < length ids /\ snd q < length cids) nbs).
      { apply Forall_forall. intros [j i] Hi. apply H3' in Hi as (L1 & L2 & _). rewrite Lb in L1. now split. }
      assert (Lt' : Forall (fun i => i < length (gsidx g)) (map fst nbs)).
      { apply Forall_map. eapply Forall_impl; [|exact Lt]. intros q (L & _). now rewrite (gg_sidx_length _ _ _ _ _ _ _ G). }
      destruct (to_original_gpu eps D rows ids B (repeat r D) g r crows cids nbs G H2 H3') as [O1 O2].
      eexists. split; [unfold original_ids; rewrite (gather_map _ _ 0 Lt'); reflexivity|].
      assert (Eo : combine (map (fun i => nth i (gsidx g) 0) (map fst nbs)) (map snd nbs) = map (to_original g) nbs).
      { clear. induction nbs as [|q l IH]; [reflexivity|]. cbn [map combine]. now rewrite IH. }
      apply HP; [|reflexivity]. cbn [bind].
      constructor; cbn [ngrid nsampled nradii nranges rshape rdata nnbs norig]; auto.
      + constructor; cbn [norig nnbs nsampled].
        * first [exact O1|rewrite Eo; exact O1].
        * first [exact O2|rewrite Eo; exact O2].
        * rewrite ?Eo, map_map. now apply map_ext.
        * rewrite (ic_pts _ _ _ _ _ _ _ C). apply C.
      + now rewrite (ic_bids _ _ _ _ _ _ _ C).
  Qed.
  Lemma neighborhood_gpu_ok ceps crows cids CB cp sample (P : nbh -> Prop) :
    match sample with Some p => Ok p | None => sorted_cloud g end = Ok cp ->
    cids <> [] -> is_cloud GPU ceps D crows cids CB cp -> Forall (fun b => b < B) cids ->
    length cids <= scan_limit active warp ->
    (forall n, cuda_nbh D r rows ids crows cids g cp n -> nequal n = (match sample with None => true | Some _ => false end) -> P n) ->
    neighborhood_gpu active warp time g (repeat r D) sample 0 P.
  Proof.
    intros Es Hc C Hids Hlen HP. eapply neighborhood_gpu_limit; eauto.
  Qed.
End Device.
