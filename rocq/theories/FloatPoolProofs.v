(** Proofs about average pooling in float32 (C78). The statements are copied into
    PropertiesFloatPool.v. *)
From Coq Require Import String List Arith ZArith NArith QArith Qabs Qround Qreals Reals Lia Lra Bool Permutation.
From Flocq Require Import Core.
From Verif Require Import Tensor TensorFacts Spec SpecText TextFacts PointCloud SpecCloud History PointCloudFacts QFacts Grid SpecGrid GridFacts Neighbors SpecNeighbors NeighborFacts NeighborProofs Neighborhood NeighborhoodFacts
  SamplingFacts SamplingProofs Pdf SpecPdf PdfFacts PdfProofs RTensor RTensorFacts Layers SpecLayers LayerFacts LayerLink LayerProofs ConvProofs
  Cuda CudaFacts GpuGrid GpuGridFacts GpuNeighbors GpuNeighborFacts
  GpuBasis GpuBasisFacts SpecGpuBasis GpuBasisProofs GpuPdf SpecGpuPdf GpuPdfFacts GpuPdfProofs
  CudaLayers SpecCudaLayers CudaLayerFacts CudaDensityFacts CudaConvFacts CudaLayerProofs
  Float FloatFacts SpecFloat FloatNorm FloatNormProofs FloatAverageProofs FloatLayers SpecFloatLayers.
Import ListNotations.
Local Open Scope nat_scope.

(** * One average *)
Lemma float32_list l : Forall float32_value l -> exists qs, map Q2R qs = l /\ Forall (fun q => (f32 q == q)%Q) qs.
Proof.
  induction 1 as [|v l (q & Hq & ->) _ (qs & E & HF)]; [exists []; split; [reflexivity|constructor]|].
  exists (q :: qs). cbn [map]. rewrite E. split; [reflexivity|constructor; assumption].
Qed.
Lemma largest (qs : list Q) : qs <> [] -> exists x, In x qs /\ Forall (fun y => (Qabs y <= Qabs x)%Q) qs.
Proof.
  induction qs as [|a qs IH]; [congruence|]. intros _. destruct qs as [|b qs].
  - exists a. split; [now left|]. constructor; [apply Qle_refl|constructor].
  - destruct (IH ltac:(discriminate)) as (x & Hx & HF). destruct (Qlt_le_dec (Qabs x) (Qabs a)) as [Hl|Hl].
    + exists a. split; [now left|]. constructor; [apply Qle_refl|]. eapply Forall_impl; [|exact HF]. intros y Hy. eapply Qle_trans; [exact Hy|now apply Qlt_le_weak].
    + exists x. split; [now right|]. constructor; assumption.
Qed.
Lemma qsum_R qs : Q2R (qsum qs) = fold_right Rplus 0%R (map Q2R qs).
Proof. induction qs as [|a qs IH]; [apply RMicromega.Q2R_0|]. unfold qsum in *. cbn [fold_right map]. now rewrite Q2R_plus, IH. Qed.
Lemma count_R n : Q2R (inject_Z (Z.of_nat n)) = INR n.
Proof. unfold Q2R, inject_Z. cbn [Qnum Qden]. rewrite INR_IZR_INZ. field. Qed.
Lemma mean_R qs : qs <> [] -> mean (map Q2R qs) = Q2R (qsum qs / inject_Z (Z.of_nat (length qs))).
Proof.
  intros Hne. unfold mean. rewrite map_length, <- qsum_R. unfold Qdiv. rewrite Q2R_mult, Q2R_inv, count_R; [reflexivity|].
  destruct qs; [congruence|]. cbn [length]. unfold Qeq; cbn; lia.
Qed.
Lemma pow148 : Q2R (pow2 (-148)) = (/ 2 ^ 148)%R.
Proof. rewrite pow2_bpow, bpow_powerRZ. reflexivity. Qed.
Lemma filter_le {A} (P : A -> bool) l : length (filter P l) <= length l.
Proof. induction l as [|a l IH]; [apply Nat.le_refl|]. cbn [filter]. destruct (P a); cbn [length]; lia. Qed.

Lemma average32_ok red l : averaging32 red -> Forall float32_value l -> l <> [] -> (Z.of_nat (length l) <= 2 ^ 23)%Z -> average32 l (red l).
Proof.
  intros [_ Hred] HF Hne Hlen. destruct (float32_list l HF) as (qs & <- & Hq). rewrite map_length in Hlen.
  assert (Hqs : qs <> []) by (intros ->; now apply Hne). destruct (Hred qs Hqs) as (s & Hs & ->). split; [|split].
  - intros m Hm. destruct (largest qs Hqs) as (x & Hx & HL).
    assert (X := mean_close qs s (Qabs x) _ Hs Hlen HL (Qeq_refl _)). cbv zeta in X.
    rewrite mean_R by exact Hqs. rewrite <- Q2R_minus, <- Q2R_abs. eapply Rle_trans; [apply Qle_Rle; exact X|].
    rewrite Q2R_plus, Q2R_mult, pow148. unfold Qdiv. rewrite Q2R_mult, count_R, map_length, Q2R_abs.
    replace (Q2R (/ 8388608)) with (/ 8388608)%R by (unfold Q2R; cbn; lra).
    apply Rplus_le_compat_r. apply Rmult_le_compat_r.
    + apply Rmult_le_pos; [apply pos_INR|lra].
    + rewrite Forall_forall in Hm. apply Hm. now apply in_map.
  - intros x E. destruct qs as [|q [|? ?]]; try discriminate. cbn in E. injection E as <-. apply Forall_inv in Hq. apply sum32_single in Hs. subst s.
    apply Qeq_eqR. apply (mean_single q _ Hq). reflexivity.
  - intros x y E. destruct qs as [|q [|t [|? ?]]]; try discriminate. cbn in E. injection E as <- <-.
    assert (Hq1 := Forall_inv Hq). assert (Hq2 := Forall_inv (Forall_inv_tail Hq)). cbv beta in Hq1, Hq2.
    destruct (Qlt_le_dec t q) as [Hl|Hl].
    + apply Qlt_le_weak in Hl. rewrite Rmin_right, Rmax_left by now apply Qle_Rle.
      assert (Z2 : (2 * t <= s <= 2 * q)%Q).
      { apply (sum32_pair _ s _ _ Hs eq_refl Hq2 Hq1). repeat constructor; try apply Qle_refl; assumption. }
      destruct (mean_pair s _ t q Z2 Hq2 Hq1 (Qeq_refl _)). split; apply Qle_Rle; assumption.
    + rewrite Rmin_left, Rmax_right by now apply Qle_Rle.
      assert (Z2 : (2 * q <= s <= 2 * t)%Q).
      { apply (sum32_pair _ s _ _ Hs eq_refl Hq1 Hq2). repeat constructor; try apply Qle_refl; assumption. }
      destruct (mean_pair s _ q t Z2 Hq1 Hq2 (Qeq_refl _)). split; apply Qle_Rle; assumption.
Qed.
Lemma average32_perm l m v : Permutation l m -> average32 l v -> average32 m v.
Proof.
  intros HP (H1 & H2 & H3). split; [|split].
  - intros b Hb. replace (mean m) with (mean l).
    + rewrite <- (Permutation_length HP). apply H1. eapply Permutation_Forall; [apply Permutation_sym; exact HP|exact Hb].
    + unfold mean. rewrite (Permutation_length HP). f_equal. change (rsum l = rsum m). now apply rsum_perm.
  - intros x ->. apply Permutation_sym, Permutation_length_1_inv in HP. now apply H2.
  - intros x y ->. apply Permutation_sym, Permutation_length_2_inv in HP. destruct HP as [-> | ->]; [now apply H3|].
    rewrite Rmin_comm, Rmax_comm. now apply H3.
Qed.
Lemma fval_float F j c : float32_features F -> float32_value (fval F j c).
Proof.
  intros HF. assert (Z0 : float32_value 0%R) by (exists 0%Q; split; [reflexivity|now rewrite RMicromega.Q2R_0]).
  unfold fval. destruct (Nat.lt_ge_cases j (length F)) as [Hj|Hj].
  - unfold float32_features in HF. rewrite Forall_forall in HF. specialize (HF _ (nth_In F [] Hj)).
    destruct (Nat.lt_ge_cases c (length (nth j F []))) as [Hc|Hc]; [|now rewrite nth_overflow].
    rewrite Forall_forall in HF. now apply HF, nth_In.
  - rewrite (nth_overflow F) by exact Hj. now destruct c.
Qed.

(** C78. Global average pooling in float32, for every cloud and every order of the
    additions: one row per batch element with the average of each feature over the
    points of the element, up to the rounding error. *)
Lemma C78_global_proof :
  forall dev eps D rows ids B p feats C F red, cloud GPU eps D rows ids B p -> given feats p C F -> float32_features F ->
    averaging32 red -> (Z.of_nat (length ids) <= 2 ^ 23)%Z ->
    let values := fun b c => map (fun j => fval F j c) (members ids b) in
    exists av, global_pooling dev red feats p false = Ok av /\ tshape av = [B; C] /\
      (forall b c, b < B -> c < C -> In b ids -> average32 (values b c) (tget av [b; c])) /\
      (forall b c, b < B -> c < C -> ~ In b ids -> tget av [b; c] = 0%R).
Proof.
  intros dev eps D rows ids B p feats C F red Hc Hg HF Hred Hlen values.
  rewrite (global_pooling_table dev eps D rows ids B p feats C F red false Hc Hg). cbv zeta iota.
  eexists. split; [reflexivity|]. split; [reflexivity|]. split.
  - intros b c Hb Hc' Hin. rewrite tget_ttab by in_sh. apply average32_ok; [exact Hred| | |].
    + apply Forall_map, Forall_forall. intros j _. now apply fval_float.
    + intros E. apply map_eq_nil in E. now apply members_In in Hin.
    + rewrite map_length. unfold members. etransitivity; [|exact Hlen]. apply inj_le. rewrite <- (seq_length (length ids) 0) at 2. apply filter_le.
  - intros b c Hb Hc' Hin. rewrite tget_ttab by in_sh. destruct Hred as [Hz _]. rewrite <- Hz. f_equal.
    destruct (members ids b) eqn:E; [reflexivity|]. exfalso. apply Hin, members_In. congruence.
Qed.

(** * Local pooling *)
Lemma pool_order D r rows ids crows cids n C f : pairs_of D r rows ids crows cids n ->
  exists L, (forall i, i < length cids -> Permutation (L i) (near_points D r rows ids crows cids i)) /\
    forall dev red, (nb <- tgather (ttab [length ids; C] f) (map fst (norig n)) ;;
     tsegment dev red nb (map snd (norig n)) (length cids)) =
    Ok (ttab [length cids; C] (fun idx => match idx with [i; c] => red (map (fun p => f [p; c]) (L i)) | _ => 0%R end)).
Proof.
  intros Hp. exists (fun i => map fst (filter (fun q => snd q =? i) (norig n))). split.
  - intros i Hi. rewrite (Permutation_map fst (pairs_center _ _ _ _ _ _ _ Hp i Hi)), map_map. cbn [fst]. now rewrite map_id.
  - intros dev red. rewrite tgather_ttab by apply (pairs_fst _ _ _ _ _ _ _ Hp). cbn [bind]. rewrite map_length.
    rewrite tsegment_ttab by (try apply (pairs_snd _ _ _ _ _ _ _ Hp); apply map_length). f_equal.
    apply ttab_ext. intros idx Hi. idx_inv. f_equal. rewrite map_map.
    rewrite (filter_ext _ (fun k => snd (nth k (norig n) (0, 0)) =? i)) by (intros k; now rewrite (map_nth snd (norig n) (0, 0))).
    rewrite <- (positions_map (0, 0) (fun q => snd q =? i) (fun q => f [fst q; i0])). apply map_ext. intros k. now rewrite (map_nth fst (norig n) (0, 0)).
Qed.
Lemma pooled_average red F c L N : averaging32 red -> float32_features F -> Permutation L N -> (Z.of_nat (length N) <= 2 ^ 23)%Z ->
  if map (fun j => fval F j c) N then red (map (fun j => fval F j c) L) = 0%R
  else average32 (map (fun j => fval F j c) N) (red (map (fun j => fval F j c) L)).
Proof.
  intros Hred HF HP Hlen. destruct N as [|a N].
  - apply Permutation_sym, Permutation_nil in HP. subst L. apply Hred.
  - cbn [map]. change (fval F a c :: map (fun j => fval F j c) N) with (map (fun j => fval F j c) (a :: N)).
    apply (average32_perm _ _ _ (Permutation_map (fun j => fval F j c) HP)). apply average32_ok; [exact Hred| | |].
    + apply Forall_map, Forall_forall. intros j _. now apply fval_float.
    + intros E. apply map_eq_nil in E. subst L. now apply Permutation_nil in HP.
    + rewrite map_length, (Permutation_length HP). exact Hlen.
Qed.
Lemma near_count D r rows ids crows cids i : length (near_points D r rows ids crows cids i) <= length ids.
Proof. unfold near_points. rewrite <- (seq_length (length ids) 0) at 2. apply filter_le. Qed.

(** C78, partial. Local average pooling with float32 averages: row i holds the
    average of each feature over the points within the radius of center i, up to
    the rounding error; without such points 0. Partial: the neighbors are those of
    exact arithmetic, for clouds that the fallback can index (C31). *)
Lemma C78_local_partial_proof :
  forall eps D r rows ids pin crows cids pout radii feats C F red return_sorted return_padded,
    workable eps D r rows ids pin crows cids pout -> radii = [r] \/ radii = repeat r D -> given feats pin C F -> float32_features F ->
    averaging32 red -> (Z.of_nat (length ids) <= 2 ^ 23)%Z ->
    let values := fun i c => map (fun j => fval F j c) (near_points D r rows ids crows cids i) in
    exists av,
      local_pooling GPU eps (find_neighbors_tf GPU) red feats pin pout (Some radii) return_sorted return_padded
        = returned pout return_sorted return_padded C (table (length cids) C av) /\
      forall i c, i < length cids -> c < C -> if values i c then av i c = 0%R else average32 (values i c) (av i c).
Proof.
  intros eps D r rows ids pin crows cids pout radii feats C F red srt pad W Hrad Hg HF Hred Hlen values.
  destruct (workable_nbh _ _ _ _ _ _ _ _ _ W) as (g & n & B & Eg & HcB & Hu & En & Hm & Hv & P1 & P2).
  destruct W as [(B' & Hc & _) (ceps & CB & Ho) HD _ _ _ _].
  pose proof (cloud_is _ _ _ _ _ _ _ Hc) as Hi. pose proof (cloud_is _ _ _ _ _ _ _ Ho) as Hio.
  assert (Eb : bcast D radii = repeat r D).
  { destruct Hrad as [-> | ->]; [reflexivity|apply all_dims_repeat]. }
  destruct (pool_order D r rows ids crows cids n C (fun idx => match idx with [i; j] => fval F i j | _ => 0%R end) P1) as (L & HL & Hpool).
  specialize (Hpool GPU red). rewrite tgather_ttab in Hpool by apply (pairs_fst _ _ _ _ _ _ _ P1). cbn [bind] in Hpool.
  exists (fun i c => red (map (fun j => fval F j c) (L i))). split.
  - unfold local_pooling. rewrite (given_flat _ _ _ _ Hg). cbn [bind].
    rewrite (ic_dim _ _ _ _ _ _ _ Hi), Eb, Eg. cbn [bind]. rewrite En. cbn [bind].
    rewrite (ic_pts _ _ _ _ _ _ _ Hi), (ic_len _ _ _ _ _ _ _ Hi), (ic_pts _ _ _ _ _ _ _ Hio), (ic_len _ _ _ _ _ _ _ Hio).
    rewrite tgather_ttab by apply (pairs_fst _ _ _ _ _ _ _ P1). cbn [bind]. rewrite Hpool. cbn [bind].
    apply layer_output_table.
  - intros i c Hi' Hc'. apply pooled_average; [exact Hred|exact HF|now apply HL|].
    pose proof (near_count D r rows ids crows cids i). lia.
Qed.

(** C78, partial. The same with the CUDA operations, for every device and every
    interleaving of the threads, which decides the order of the neighbors. The
    requested layout has to exist (C09). *)
Lemma C78_cuda_partial_proof :
  forall active pactive bactive warp time eps D r rows ids pin crows cids pout radii feats C F red return_sorted return_padded,
    device_ok active pactive bactive warp ->
    cuda_workable (scan_limit active warp) eps D r rows ids pin crows cids pout ->
    radii = [r] \/ radii = repeat r D -> given feats pin C F -> float32_features F ->
    averaging32 red -> (Z.of_nat (length ids) <= 2 ^ 23)%Z ->
    (forall T, length T = length cids -> exists out, returned pout return_sorted return_padded C T = Ok out) ->
    let values := fun i c => map (fun j => fval F j c) (near_points D r rows ids crows cids i) in
    local_pooling_gpu active warp time eps red feats pin pout (Some radii) return_sorted return_padded (fun out => exists av,
      returned pout return_sorted return_padded C (table (length cids) C av) = Ok out /\
      forall i c, i < length cids -> c < C -> if values i c then av i c = 0%R else average32 (values i c) (av i c)).
Proof.
  intros active pactive bactive warp time eps D r rows ids pin crows cids pout radii feats C F red srt pad Hdev W Hrad Hg HF Hred Hlen Hok values.
  unfold local_pooling_gpu.
  pose proof W as [(B & Hc & _) (ceps & CB & Hco) HD _ _ _ _].
  pose proof (cloud_is _ _ _ _ _ _ _ Hc) as Hi. pose proof (cloud_is _ _ _ _ _ _ _ Hco) as Hio.
  eexists. split; [exact (given_flat _ _ _ _ Hg)|]. eexists. split; [reflexivity|].
  rewrite (ic_dim _ _ _ _ _ _ _ Hi).
  replace (bcast D radii) with (repeat r D) by (destruct Hrad as [-> | ->]; [reflexivity|symmetry; apply all_dims_repeat]).
  apply (cuda_grid_nbh active pactive bactive warp time eps Hdev D r rows ids pin crows cids pout W). intros B' g n G _ Hn _.
  pose proof (cn_pairs _ _ _ _ _ _ _ _ _ Hn) as P1.
  destruct (pool_order D r rows ids crows cids n C (fun idx => match idx with [i; j] => fval F i j | _ => 0%R end) P1) as (L & HL & Hpool).
  specialize (Hpool GPU red). rewrite tgather_ttab in Hpool by apply (pairs_fst _ _ _ _ _ _ _ P1). cbn [bind] in Hpool.
  set (av := fun i c => red (map (fun j => fval F j c) (L i))).
  destruct (Hok (table (length cids) C av)) as (out & Eo); [unfold table; now rewrite map_length, seq_length|].
  exists out. split.
  - rewrite (ic_pts _ _ _ _ _ _ _ Hi), (ic_len _ _ _ _ _ _ _ Hi), (ic_pts _ _ _ _ _ _ _ Hio), (ic_len _ _ _ _ _ _ _ Hio).
    rewrite tgather_ttab by apply (pairs_fst _ _ _ _ _ _ _ P1). cbn [bind]. rewrite Hpool. cbn [bind].
    rewrite layer_output_table. exact Eo.
  - exists av. split; [exact Eo|]. intros i c Hi' Hc'. apply pooled_average; [exact Hred|exact HF|now apply HL|].
    pose proof (near_count D r rows ids crows cids i). lia.
Qed.

(** * Equality with the mean is refuted *)
(** C78, equality refuted. In exact arithmetic the average of equal features is
    that feature. In float32 the average of three equal features is computed as
    another number, whatever the order of the additions. *)
Lemma C78_equal_refuted_proof :
  exists rows ids p feats F, cloud GPU 0 2 rows ids 1 p /\ given feats p 1 F /\ float32_features F /\ F = repeat [Q2R ex76_x] 3 /\
    forall dev red, averaging32 red ->
      exists av, global_pooling dev red feats p false = Ok av /\ tshape av = [1; 1] /\ tget av [0; 0] <> Q2R ex76_x.
Proof.
  set (rows := repeat [0; 0]%Q 3 : list point). set (ids := [0; 0; 0]). set (F := repeat [Q2R ex76_x] 3).
  assert (Hc : cloud GPU 0 2 rows ids 1 (seg 2 rows ids 1)) by (apply seg_cloud; repeat constructor).
  assert (Hg : given (Feat 1 (inr F)) (seg 2 rows ids 1) 1 F) by (split; [reflexivity|split; reflexivity]).
  exists rows, ids, (seg 2 rows ids 1), (Feat 1 (inr F)), F. split; [exact Hc|]. split; [exact Hg|]. split.
  { assert (X : float32_value (Q2R ex76_x)) by (exists ex76_x; split; reflexivity). repeat constructor; exact X. }
  split; [reflexivity|]. intros dev red [_ Hred].
  rewrite (global_pooling_table dev 0 2 rows ids 1 _ _ 1 F red false Hc Hg). cbv zeta iota.
  eexists. split; [reflexivity|]. split; [reflexivity|]. rewrite tget_ttab by in_sh.
  change (map (fun j => fval F j 0) (members ids 0)) with (map Q2R [ex76_x; ex76_x; ex76_x]).
  destruct (Hred [ex76_x; ex76_x; ex76_x] ltac:(discriminate)) as (s & Hs & ->). intros E. apply eqR_Qeq in E. revert E.
  destruct (sum32_three _ _ Hs) as [-> | ->]; vm_compute; discriminate.
Qed.

(** * Concrete cases *)
(** The values are added from the last to the first. *)
Fixpoint tail_sumR (l : list R) : R :=
  match l with [] => 0%R | [x] => x | x :: l' => b32 (x + tail_sumR l')%R end.
Definition tail_red (l : list R) : R :=
  match l with [] => 0%R | _ => b32 (tail_sumR l / b32 (INR (length l)))%R end.
Lemma tail_sum_R l : tail_sumR (map Q2R l) = Q2R (tail_sum l).
Proof.
  induction l as [|x l IH]; [cbn; now rewrite RMicromega.Q2R_0|]. destruct l as [|y l]; [reflexivity|].
  change (tail_sumR (map Q2R (x :: y :: l))) with (b32 (Q2R x + tail_sumR (map Q2R (y :: l)))%R). rewrite IH, <- Q2R_plus, <- f32_ok. reflexivity.
Qed.
Lemma tail_red_ok : averaging32 tail_red.
Proof.
  split; [reflexivity|]. intros l Hne. exists (tail_sum l). split; [now apply tail_sum_ok|].
  destruct l as [|x l]; [congruence|]. unfold tail_red. cbn [map]. change (Q2R x :: map Q2R l) with (map Q2R (x :: l)).
  rewrite tail_sum_R, map_length, f32_ok. unfold Qdiv. rewrite Q2R_mult, Q2R_inv, f32_ok, count_R; [reflexivity|].
  assert (H1 : (f32 1 <= f32 (inject_Z (Z.of_nat (length (x :: l)))))%Q).
  { apply f32_mono. change 1%Q with (inject_Z 1). rewrite <- Zle_Qle. cbn [length]. lia. }
  change (f32 1) with 1%Q in H1. intros E. rewrite E in H1. apply H1. reflexivity.
Qed.
Lemma whole_float k : (f32 (inject_Z k) == inject_Z k)%Q -> float32_value (IZR k).
Proof. intros H. exists (inject_Z k). split; [exact H|]. unfold Q2R, inject_Z. cbn [Qnum Qden]. field. Qed.
Lemma exN_float : float32_features exN_F.
Proof. repeat constructor; apply whole_float; vm_compute; reflexivity. Qed.
Example C78_global_ex_proof :
  averaging32 tail_red /\ float32_features exN_F /\ cloud GPU (1#1000) 2 exN_rows exN_ids 2 (seg 2 exN_rows exN_ids 2) /\
  given (Feat 2 (inr exN_F)) (seg 2 exN_rows exN_ids 2) 2 exN_F /\
  map (fun j => fval exN_F j 0) (members exN_ids 1) = [9%R; 11%R].
Proof.
  split; [exact tail_red_ok|]. split; [exact exN_float|]. split; [apply seg_cloud; repeat constructor|]. split; [exact exN_given|reflexivity].
Qed.
Example C78_local_partial_ex_proof :
  averaging32 tail_red /\ float32_features exN_F /\
  workable (1#1000) 2 1 exN_rows exN_ids (seg 2 exN_rows exN_ids 2) exN_centers exN_cids (seg 2 exN_centers exN_cids 2) /\
  given (Feat 2 (inr exN_F)) (seg 2 exN_rows exN_ids 2) 2 exN_F /\
  map (near_points 2 1 exN_rows exN_ids exN_centers exN_cids) (seq 0 5) = [[0];[1];[];[];[4]].
Proof. split; [exact tail_red_ok|]. split; [exact exN_float|]. split; [exact exN_workable|]. split; [exact exN_given|]. vm_compute. reflexivity. Qed.
Example C78_cuda_partial_ex_proof :
  averaging32 tail_red /\ float32_features exN_F /\ device_ok ex55_active 3 5 32 /\
  cuda_workable (scan_limit ex55_active 32) (1#1000) 2 1 exN_rows exN_ids (seg 2 exN_rows exN_ids 2) exN_rows exN_ids (seg 2 exN_rows exN_ids 2) /\
  map (near_points 2 1 exN_rows exN_ids exN_rows exN_ids) (seq 0 6) = [[0;1];[0;1];[2];[3];[4;5];[4;5]] /\
  given (Feat 2 (inr exN_F)) (seg 2 exN_rows exN_ids 2) 2 exN_F /\
  forall T, length T = length exN_ids -> exists out, returned (seg 2 exN_rows exN_ids 2) false false 2 T = Ok out.
Proof.
  split; [exact tail_red_ok|]. split; [exact exN_float|]. split; [exact ex55_device|]. split; [exact ex55_workable|]. split; [vm_compute; reflexivity|]. split; [exact exN_given|].
  intros T _. eexists. reflexivity.
Qed.
Example C78_equal_refuted_ex_proof : averaging32 tail_red /\ tail_red [Q2R ex76_x; Q2R ex76_x; Q2R ex76_x] <> Q2R ex76_x.
Proof.
  split; [exact tail_red_ok|]. destruct (proj2 tail_red_ok [ex76_x; ex76_x; ex76_x] ltac:(discriminate)) as (s & Hs & E).
  change [Q2R ex76_x; Q2R ex76_x; Q2R ex76_x] with (map Q2R [ex76_x; ex76_x; ex76_x]). rewrite E. intros X. apply eqR_Qeq in X. revert X.
  destruct (sum32_three _ _ Hs) as [-> | ->]; vm_compute; discriminate.
Qed.
