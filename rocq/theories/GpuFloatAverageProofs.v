(** Proofs about cell averages with the CUDA operation in float32 (C77). The
    statements are copied into PropertiesGpuFloatAverage.v. *)
From Coq Require Import String List Arith ZArith NArith QArith Qround Qabs Lia Lqa Bool Permutation Sorted.
From Verif Require Import Tensor TensorFacts Spec PointCloud SpecCloud History PointCloudFacts QFacts CloudProofs
  Grid SpecGrid GridFacts GridProofs Neighbors SpecNeighbors NeighborFacts NeighborProofs Neighborhood NeighborhoodFacts Sampling SpecSampling SamplingFacts SamplingProofs
  Cuda CudaFacts AddFacts GpuGrid GpuGridFacts GpuGridProofs GpuScan SpecGpu GpuNeighbors GpuCountFacts SlotFacts GpuStoreFacts
  GpuNeighborFacts GpuOpFacts GpuRangeFacts GpuGeometry GpuSearchFacts GpuNeighborProofs GpuSampling UniqueFacts PoissonFacts SampleFacts SpecGpuSampling GpuSampleFacts GpuSampleProofs
  Float FloatFacts FloatGrid SpecFloat FloatGridFacts FloatProofs GpuFloat SpecGpuFloat GpuFloatProofs GpuFloatSearch GpuNearFacts GpuFloatSearchProofs GpuFloatSampling
  FloatNorm FloatNormProofs FloatAverage SpecFloatAverage FloatAverageProofs GpuFloatAverage SpecGpuFloatAverage.
Import ListNotations.
Local Open Scope nat_scope.

(** * One average *)
Lemma running_sum (l : list Q) : forall pre s a, sum32 pre s -> (s == a)%Q ->
  exists s', sum32 (pre ++ l) s' /\ (s' == fold_left (fun a x => f32 (a + x)) l a)%Q.
Proof.
  induction l as [|x l IH]; intros pre s a Hs E.
  - exists s. rewrite app_nil_r. split; [exact Hs|exact E].
  - destruct (IH (pre ++ [x]) (f32 (s + x)) (f32 (a + x))) as (s' & H1 & H2).
    + apply (sum32_add _ pre [x]); [apply Permutation_refl|exact Hs|apply sum32_one].
    + apply f32_comp. now rewrite E.
    + exists s'. rewrite <- app_assoc in H1. split; [exact H1|exact H2].
Qed.
Lemma fold_left_map {A X C} (f : A -> C -> A) (h : X -> C) l : forall a, fold_left (fun a x => f a (h x)) l a = fold_left f (map h l) a.
Proof. induction l as [|x l IH]; intros a; [reflexivity|]. cbn [fold_left map]. apply IH. Qed.
Lemma avg_point32_mean D rows : rows <> [] -> Forall (fun r => forall d, d < D -> is_float32 (nth d r 0%Q)) rows -> mean32 D rows (avg_point32 D rows).
Proof.
  intros Hne HF. split; [unfold avg_point32; now rewrite map_length, seq_length|]. intros d Hd. unfold avg_point32. rewrite QFacts.nth_map_seq by exact Hd.
  destruct rows as [|r rows]; [congruence|]. apply Forall_inv in HF. specialize (HF d Hd).
  destruct (running_sum (map (fun r => nth d r 0%Q) rows) [nth d r 0%Q] (nth d r 0%Q) (f32 (0 + coord r d))) as (s & H1 & H2).
  - apply sum32_one.
  - unfold coord. rewrite <- (HF : (f32 (nth d r 0) == nth d r 0)%Q) at 1. apply f32_comp. ring.
  - exists s. split; [exact H1|]. apply f32_comp. cbn [fold_left]. rewrite (fold_left_map (fun a x => f32 (a + x)) (fun r => coord r d)). unfold coord at 2.
    rewrite <- H2. reflexivity.
Qed.

(** What C76 and C77 say about the average of one cell. *)
Lemma average_facts D rows ids grp v : float32_batch D rows ids -> grp <> [] -> (forall i, In i grp -> i < length ids) ->
  (Z.of_nat (length grp) <= 2 ^ 23)%Z -> mean32 D (map (fun i => nth i rows []) grp) v ->
  near_mean D rows grp v /\
  (forall i, grp = [i] -> forall d, d < D -> (nth d v 0 == xc rows i d)%Q) /\
  (forall i j, grp = [i; j] -> forall d, d < D -> (xc rows i d <= xc rows j d)%Q -> (xc rows i d <= nth d v 0 /\ nth d v 0 <= xc rows j d)%Q).
Proof.
  intros Hf Hne Hlt Hgl [La Hd].
  assert (Hx : forall d, map (fun r => nth d r 0%Q) (map (fun i => nth i rows []) grp) = map (fun i => xc rows i d) grp) by (intros d; apply map_map).
  rewrite map_length in Hd.
  assert (Hlen : (0 < inject_Z (Z.of_nat (length grp)))%Q).
  { destruct grp; [congruence|]. cbn [length]. unfold Qlt; cbn; lia. }
  split; [|split].
  + exists (map (fun d => qsum (map (fun i => xc rows i d) grp) / inject_Z (Z.of_nat (length grp)))%Q (seq 0 D)). split; [|split; [exact La|]].
    * split; [now rewrite map_length, seq_length|]. split; [exact Hne|]. intros d Hd'. rewrite QFacts.nth_map_seq by exact Hd'. unfold qsum. field. lra.
    * intros d m Hd' Hm. rewrite QFacts.nth_map_seq by exact Hd'. destruct (Hd d Hd') as (s & Hs & Ev). rewrite Hx in Hs.
      assert (X := mean_close (map (fun i => xc rows i d) grp) s m (nth d v 0%Q) Hs). cbv zeta in X. rewrite map_length in X. apply X; [lia| |exact Ev].
      apply Forall_map, Forall_forall. exact Hm.
  + intros i Ei d Hd'. destruct (Hd d Hd') as (s & Hs & Ev). rewrite Hx, Ei in Hs. cbn [map] in Hs. apply sum32_single in Hs. subst s.
    rewrite Ei in Ev. cbn [length] in Ev. apply (mean_single _ _ (Hf i d (Hlt i ltac:(rewrite Ei; now left)) Hd') Ev).
  + intros i j Ei d Hd' Hle. destruct (Hd d Hd') as (s & Hs & Ev). rewrite Hx, Ei in Hs. rewrite Ei in Ev. cbn [length] in Ev.
    assert (Fi := Hf i d (Hlt i ltac:(rewrite Ei; now left)) Hd'). assert (Fj := Hf j d (Hlt j ltac:(rewrite Ei; right; now left)) Hd').
    apply (mean_pair s); auto. apply (sum32_pair _ s _ _ Hs); auto. cbn [map]. constructor; [lra|]. constructor; [lra|constructor].
Qed.

(** * The kernel *)
Lemma average_runs32 active warp D nc keys ps firsts (P : list (point * Z) -> Prop) : active <> 0 -> warp <> 0 -> firsts <> [] ->
  length ps = length keys -> (forall s, In s firsts -> s < length keys) ->
  (forall s p, In s firsts -> In p (cell_points keys s) -> p < length keys) ->
  P (map (fun s => (avg_point32 D (map (fun j => nth j ps []) (cell_points keys s)), Z.quot (nth s keys 0%Z) (zprod nc))) firsts) ->
  sampling_avg_gpu32 active warp D nc keys ps firsts P.
Proof.
  intros Ha Hw Hne Lp Hs Hc HP. unfold sampling_avg_gpu32. cbv zeta. intros out Lo.
  assert (Hb : num_blocks active (4 * warp) (length firsts) <> 0) by (apply num_blocks_pos; auto; try lia; destruct firsts; cbn; congruence). split; auto.
  eapply every_run_weaken; [|apply (opt_body_runs _ (fun i => Some (avg_point32 D (map (fun j => nth j ps []) (cell_points keys (nth i firsts 0))), Z.quot (nth (nth i firsts 0) keys 0%Z) (zprod nc))) ([], 0%Z)); auto; [lia|]].
  - intros m ->. rewrite <- (map_map (fun i => nth i firsts 0) (fun s => (avg_point32 D (map (fun j => nth j ps []) (cell_points keys s)), Z.quot (nth s keys 0%Z) (zprod nc)))).
    now rewrite TensorFacts.map_nth_seq.
  - intros i Hi. eexists. split; [reflexivity|]. intros m. unfold opt_write, rd. pose proof (nth_In firsts 0 Hi) as Is. rewrite (nth_error_nth' firsts i 0) by auto. cbn [obind].
    rewrite (nth_error_nth' keys (nth i firsts 0) 0%Z) by auto. cbn [obind]. rewrite forallb_true; [reflexivity|]. intros j Hj. apply Nat.ltb_lt. rewrite Lp. eapply Hc; eauto.
Qed.

Section Sample.
  Context (fused : bool) (D : nat) (rows : list point) (ids : list nat) (B : nat) (cells : point) (g : grid).
  Hypothesis HD : 2 <= D <= 6.
  Hypothesis G : is_device_grid fused D rows ids B cells g.
  Hypothesis Hne : ids <> [].
  Let N := length ids.

  Lemma da_grouped i j k : i <= j <= k -> k < length (gskeys g) -> nth i (gskeys g) 0%Z = nth k (gskeys g) 0%Z -> nth j (gskeys g) 0%Z = nth i (gskeys g) 0%Z.
  Proof using G HD.
    intros Hij Hk E.
    assert (X : forall a b, a <= b -> b < length (gskeys g) -> (nth b (gskeys g) 0 <= nth a (gskeys g) 0)%Z).
    { intros a b Hab Hb. destruct (Nat.eq_dec a b) as [->|Ne]; [lia|]. apply (sd_sorted fused D rows ids B cells g G); [lia|auto]. }
    pose proof (X i j ltac:(lia) ltac:(lia)). pose proof (X j k ltac:(lia) ltac:(auto)). lia.
  Qed.
  Lemma da_same i j : i < N -> j < N ->
    (nth i (gkeys g) 0%Z = nth j (gkeys g) 0%Z <-> nth i ids 0 = nth j ids 0 /\ forall d, d < D -> dcell fused D rows ids cells (gnc g) i d = dcell fused D rows ids cells (gnc g) j d).
  Proof using G HD.
    intros Hi Hj. rewrite (sd_key fused D rows ids B cells g G i Hi), (sd_key fused D rows ids B cells g G j Hj).
    pose proof (sd_cells_in fused D rows ids B cells g G i) as Ii. pose proof (sd_cells_in fused D rows ids B cells g G j) as Ij.
    pose proof (radix_range _ _ Ii). pose proof (radix_range _ _ Ij). split.
    - intros E. assert (Hb : nth i ids 0 = nth j ids 0) by nia. split; [exact Hb|]. rewrite Hb in E.
      assert (Hr : radix (gnc g) (sd_cells fused D rows ids cells g i) = radix (gnc g) (sd_cells fused D rows ids cells g j)) by lia.
      apply radix_inj in Hr; [|exact Ii|exact Ij]. intros d Hd. unfold sd_cells in Hr.
      rewrite <- (QFacts.nth_map_seq (dcell fused D rows ids cells (gnc g) i) D d 0%Z Hd), <- (QFacts.nth_map_seq (dcell fused D rows ids cells (gnc g) j) D d 0%Z Hd). now rewrite Hr.
    - intros [-> Hcc]. do 2 f_equal. unfold sd_cells. apply map_ext_in. intros d Hd. apply in_seq in Hd. apply Hcc. lia.
  Qed.

  Let grp (s : nat) : list nat := map (fun j => nth j (gsidx g) 0) (cell_points (gskeys g) s).
  Let out (A : list nat) := map (fun s => avg_point32 D (map (fun j => nth j (gspts g) []) (cell_points (gskeys g) s))) A.
  Let out_ids (A : list nat) := map (fun s => nth s (gsbids g) 0) A.

  Lemma da_op (active : skernel -> nat) warp ranges (P : list point -> list Z -> Prop) :
    (forall k, active k <> 0) -> warp <> 0 -> length ranges = N ->
    (forall A, Permutation A (firsts_of (gskeys g)) -> P (out A) (map Z.of_nat (out_ids A))) ->
    sampling_average_op32 active warp D (gspts g) (gsbids g) (gskeys g) (gnc g) ranges P.
  Proof using G Hne HD.
    intros Ha Hw Lr HP. pose proof (sd_skeys_len fused D rows ids B cells g G) as Lk. pose proof (sd_spts_len fused D rows ids B cells g G) as Lp.
    pose proof (sd_sbids_len fused D rows ids B cells g G) as Lb. pose proof (sd_nc_len fused D rows ids B cells g G) as Ln. fold N in Lk, Lp, Lb.
    assert (Hk : gskeys g <> []). { intros E. rewrite E in Lk. unfold N in Lk. destruct ids; [congruence|discriminate]. }
    unfold sampling_average_op32. split; [exact HD|]. split; [lia|]. split; [lia|]. split; [exact Ln|]. split; [lia|].
    apply unique_keys_ok; auto. intros A PA. cbv iota beta.
    assert (Hs : forall s, In s A -> In s (firsts_of (gskeys g))) by (intros s Hs; eapply Permutation_in; eauto).
    apply average_runs32; auto; try lia.
    - intros E. subst A. apply Permutation_nil in PA. pose proof (firsts_count (gskeys g) Hk) as C. rewrite PA in C. cbn [length] in C.
      assert (0 <= tot (change (gskeys g)) (seq 0 (length (gskeys g) - 1)))%Z; [|lia]. apply tot_nonneg. intros i _. unfold change. destruct (_ =? _)%Z; lia.
    - intros s I. apply Hs, firsts_in in I. tauto.
    - intros s p I J. apply cell_points_in in J; auto; [tauto|intros i j k; apply da_grouped].
    - rewrite !map_map. cbn [fst snd]. specialize (HP A PA). unfold out, out_ids in HP. rewrite map_map in HP.
      rewrite (map_ext_in (fun s => Z.quot (nth s (gskeys g) 0%Z) (zprod (gnc g))) (fun s => Z.of_nat (nth s (gsbids g) 0))); auto.
      intros s I. apply Hs, firsts_in in I. destruct I as (I & _). destruct (sd_pkeys fused D rows ids B cells g G s I) as (-> & Ic & H0).
      pose proof (radix_range _ _ Ic) as Rr. pose proof (sd_prod fused D rows ids B cells g G) as Pz. rewrite Z.quot_div_nonneg by nia.
      symmetry. apply Z.div_unique with (r := radix (gnc g) (sd_pcells fused D rows ids cells g s)); lia.
  Qed.

  Lemma da_average A : float32_batch D rows ids -> (Z.of_nat N <= 2 ^ 23)%Z -> Permutation A (firsts_of (gskeys g)) ->
    device_average32 fused D cells (gnc g) rows ids (out A) (out_ids A).
  Proof using G HD.
    intros Hf HN HA. pose proof (sd_skeys_len fused D rows ids B cells g G) as Lk. fold N in Lk.
    assert (Gr : forall i j k, i <= j <= k -> k < length (gskeys g) -> nth i (gskeys g) 0%Z = nth k (gskeys g) 0%Z -> nth j (gskeys g) 0%Z = nth i (gskeys g) 0%Z) by exact da_grouped.
    assert (Hs : forall s, In s A -> In s (firsts_of (gskeys g))) by (intros s I; eapply Permutation_in; eauto).
    assert (Cp : forall s p, In s A -> (In p (cell_points (gskeys g) s) <-> p < N /\ nth p (gskeys g) 0%Z = nth s (gskeys g) 0%Z)).
    { intros s p I. rewrite <- Lk. apply cell_points_in; auto. }
    assert (Sl : forall s, In s A -> s < N). { intros s I. apply Hs, firsts_in in I. lia. }
    assert (Ne : forall s, In s A -> cell_points (gskeys g) s <> []).
    { intros s I E. assert (In s (cell_points (gskeys g) s)) as X by (apply Cp; auto). rewrite E in X. destruct X. }
    assert (HG : cell_groups D (fun i j => forall d, d < D -> dcell fused D rows ids cells (gnc g) i d = dcell fused D rows ids cells (gnc g) j d) ids (map grp A)).
    { split; [|split].
      - rewrite <- flat_map_concat_map. unfold grp.
        transitivity (map (fun j => nth j (gsidx g) 0) (flat_map (cell_points (gskeys g)) A)).
        { rewrite (flat_map_concat_map (cell_points (gskeys g))), concat_map, map_map, flat_map_concat_map. reflexivity. }
        rewrite (Permutation_map _ (cells_perm _ Gr A HA)). rewrite Lk. unfold N. rewrite <- (sd_sidx_len fused D rows ids B cells g G) at 1.
        rewrite TensorFacts.map_nth_seq. apply (sd_perm fused D rows ids B cells g G).
      - apply Forall_map, Forall_forall. intros s I E. apply map_eq_nil in E. now apply (Ne s).
      - intros i j Hi Hj. fold N in Hi, Hj. rewrite <- (da_same i j Hi Hj).
        assert (Sx : forall i, i < N -> exists p, p < N /\ nth p (gsidx g) 0 = i).
        { intros k Hk. assert (I : In k (gsidx g)) by (eapply Permutation_in; [apply Permutation_sym, (sd_perm fused D rows ids B cells g G)|apply in_seq; unfold N in *; lia]).
          apply (In_nth _ _ 0) in I. destruct I as (p & Hp & Ep). rewrite (sd_sidx_len fused D rows ids B cells g G) in Hp. exists p. auto. }
        split.
        + intros (x & Hx & I & J). apply in_map_iff in Hx. destruct Hx as (s & <- & Is). apply in_map_iff in I, J. destruct I as (p & <- & Ip), J as (q & <- & Iq).
          apply Cp in Ip, Iq; auto. destruct Ip as (Lp & Ip), Iq as (Lq & Iq). rewrite <- !(sd_skey fused D rows ids B cells g G) by auto. congruence.
        + intros E. destruct (Sx i Hi) as (p & Hp & <-), (Sx j Hj) as (q & Hq & <-). rewrite <- !(sd_skey fused D rows ids B cells g G) in E by auto.
          destruct (first_of (gskeys g) p ltac:(lia)) as (s & Is & Es). assert (Ia : In s A) by (eapply Permutation_in; [apply Permutation_sym; eauto|auto]).
          exists (grp s). split; [now apply in_map|]. split; apply in_map_iff; eexists; (split; [reflexivity|]); apply Cp; auto; split; auto. congruence. }
    exists (lo32 D rows ids), (map grp A). split; [intros b Hb; apply lo32_corner; [exact (sd_rows fused D rows ids B cells g G)|exact Hb]|].
    cbv zeta. split; [exact HG|]. unfold out, out_ids. rewrite !map_length. do 2 (split; [reflexivity|]). intros k Hk.
    assert (I : In (nth k A 0) A) by now apply nth_In.
    rewrite !(nth_indep (map _ A) [] (grp 0)) by now rewrite map_length. rewrite (map_nth grp). set (s := nth k A 0) in *.
    assert (E : nth k (map (fun s => avg_point32 D (map (fun j => nth j (gspts g) []) (cell_points (gskeys g) s))) A) [] = avg_point32 D (map (fun i => nth i rows []) (grp s))).
    { rewrite (nth_indep _ [] (avg_point32 D (map (fun j => nth j (gspts g) []) (cell_points (gskeys g) 0)))) by now rewrite map_length.
      rewrite (map_nth (fun s => avg_point32 D (map (fun j => nth j (gspts g) []) (cell_points (gskeys g) s)))). fold s. f_equal. unfold grp. rewrite map_map. apply map_ext_in.
      intros p Ip. apply Cp in Ip; auto. apply (sd_spt fused D rows ids B cells g G). unfold N in *; lia. }
    rewrite E. destruct HG as (HP & _ & _).
    assert (Hgl : length (grp s) <= N).
    { unfold N. rewrite <- (seq_length (length ids) 0), <- (Permutation_length HP).
      assert (Y : In (grp s) (map grp A)) by now apply in_map. clear - Y. induction (map grp A) as [|x l IH]; [destruct Y|].
      cbn [concat]. rewrite app_length. destruct Y as [->|Y]; [lia|]. specialize (IH Y). lia. }
    assert (Hlt : forall i, In i (grp s) -> i < length ids).
    { intros i Hi. apply in_map_iff in Hi. destruct Hi as (p & <- & Ip). apply Cp in Ip; auto. destruct Ip as (Lp & _). now apply (sd_sidx_lt fused D rows ids B cells g G). }
    assert (Hn : grp s <> []) by (intros X; apply map_eq_nil in X; now apply (Ne s)).
    destruct (average_facts D rows ids (grp s) (avg_point32 D (map (fun i => nth i rows []) (grp s))) Hf Hn Hlt) as (F1 & F2 & F3).
    - lia.
    - apply avg_point32_mean; [intros X; apply map_eq_nil in X; auto|]. apply Forall_map, Forall_forall. intros i Hi d Hd. exact (Hf i d (Hlt i Hi) Hd).
    - split; [exact F1|]. split; [|split; [exact F2|exact F3]].
      intros i Hi. apply in_map_iff in Hi. destruct Hi as (p & <- & Ip). apply Cp in Ip; auto. destruct Ip as (Lp & Ip).
      rewrite (nth_indep _ 0 ((fun s => nth s (gsbids g) 0) 0)) by now rewrite map_length. rewrite (map_nth (fun s => nth s (gsbids g) 0)). fold s.
      rewrite (sd_sbid fused D rows ids B cells g G) by (apply Sl; exact I). rewrite !(sd_skey fused D rows ids B cells g G) in Ip by (auto; apply Sl; exact I). symmetry.
      apply da_same in Ip; [tauto|apply (sd_sidx_lt fused D rows ids B cells g G)..]; auto.
  Qed.

  Lemma average_gpu32 (active : skernel -> nat) warp n (P : pc -> Prop) :
    (forall k, active k <> 0) -> warp <> 0 -> ngrid n = g -> length (rdata (nranges n)) = N ->
    (forall A, Permutation A (firsts_of (gskeys g)) -> P (seg D (out A) (out_ids A) (bsize (nsampled n)))) ->
    sample_average_gpu32 active warp n P.
  Proof using G Hne HD.
    intros Ha Hw En Hl HP. destruct (dg_cloud _ _ _ _ _ _ _ G) as (eps & C). unfold sample_average_gpu32. cbv zeta. rewrite En, (ic_dim _ _ _ _ _ _ _ C).
    apply da_op; auto. intros A PA. exists (out_ids A). split; [apply to_nats_of|].
    eexists. split; [apply (sampled_cloud_ok n D); [rewrite En; apply (ic_dim _ _ _ _ _ _ _ C)|unfold out, out_ids; now rewrite !map_length]|]. auto.
  Qed.
End Sample.

(** C77, partial. Cell average sampling with the CUDA operations in float32. For
    every cloud of dimension 2 to 6 with coordinates of float32 and at most 2^23
    points, all cell sizes, every device and schedule and either way of rounding:
    the operation completes and returns for every occupied cell of every element,
    as the operation computes the cells, one point near the mean of the points of
    the cell, with their element. Partial: near the mean instead of equal to it
    (C77_equal_refuted). *)
Lemma C77_average_partial_proof :
  forall fused gactive active warp eps D rows ids B p cs,
    gactive <> 0 -> (forall k, active k <> 0) -> warp <> 0 -> 2 <= D <= 6 -> ids <> [] ->
    cloud GPU eps D rows ids B p -> float32_batch D rows ids -> (Z.of_nat (length ids) <= 2 ^ 23)%Z -> valid_sizes D (map f32 cs) ->
    mk_grid_gpu32 fused gactive warp p cs (fun g => forall n,
      ngrid n = g -> length (rdata (nranges n)) = length ids ->
      sample_average_gpu32 active warp n (fun q => dim q = D /\ bsize q = bsize (nsampled n) /\
        device_average32 fused D (all_dims D (map f32 cs)) (gnc g) rows ids (pts q) (bids q))).
Proof.
  intros fused gactive active warp eps D rows ids B p cs Hg Ha Hw HD Hne Hc Hf HN Hv. apply cloud_is in Hc.
  apply (mk_grid_gpu32_ok fused gactive warp eps D rows ids B); auto.
  intros g G n En Hl. apply (average_gpu32 fused D rows ids B _ g HD G Hne); auto.
  intros A PA. split; [reflexivity|]. split; [reflexivity|]. apply (da_average fused D rows ids B _ g HD G A Hf HN PA).
Qed.

(** * Equality with the mean is refuted *)
(** C77, equality refuted. The average of three equal points, computed in float32,
    is another point, on every device and with either way of rounding. *)
Lemma C77_equal_refuted_proof :
  exists rows ids p, cloud GPU 0 2 rows ids 1 p /\ float32_batch 2 rows ids /\ rows = repeat [ex76_x; ex76_x] 3 /\
    forall fused gactive active warp, gactive <> 0 -> (forall k, active k <> 0) -> warp <> 0 ->
      mk_grid_gpu32 fused gactive warp p [1%Q] (fun g => forall n, ngrid n = g -> length (rdata (nranges n)) = 3 ->
        sample_average_gpu32 active warp n (fun q => length (pts q) = 1 /\ forall d, d < 2 -> ~ (nth d (nth 0 (pts q) []) 0 == ex76_x)%Q)).
Proof.
  set (rows := repeat [ex76_x; ex76_x] 3 : list point). set (ids := [0; 0; 0]).
  assert (Hc : cloud GPU 0 2 rows ids 1 (seg 2 rows ids 1)) by (apply seg_cloud; repeat constructor).
  exists rows, ids, (seg 2 rows ids 1). split; [exact Hc|]. split.
  { intros i d Hi Hd. cbn in Hi. destruct i as [|[|[|i]]], d as [|[|d]]; try lia; vm_compute; reflexivity. }
  split; [reflexivity|]. intros fused gactive active warp Hg Ha Hw.
  apply (mk_grid_gpu32_ok fused gactive warp 0 2 rows ids 1); auto; [unfold supported; lia|discriminate|apply cloud_is, Hc|split; [reflexivity|repeat constructor]|].
  intros g G n En Hl.
  assert (En2 : gnc g = [1; 1]%Z).
  { rewrite (dg_nc _ _ _ _ _ _ _ G). unfold num_cells32. rewrite (dg_min _ _ _ _ _ _ _ G), (dg_max _ _ _ _ _ _ _ G). vm_compute. reflexivity. }
  assert (Ek : gkeys g = [0; 0; 0]%Z) by (rewrite (dg_keys _ _ _ _ _ _ _ G), En2; destruct fused; vm_compute; reflexivity).
  assert (Ei : gsidx g = [0; 1; 2]) by (rewrite (dg_sidx _ _ _ _ _ _ _ G), Ek; vm_compute; reflexivity).
  assert (Es : gskeys g = [0; 0; 0]%Z) by (rewrite (dg_skeys _ _ _ _ _ _ _ G), Ei, Ek; reflexivity).
  assert (Ep : gspts g = rows) by (rewrite (dg_spts _ _ _ _ _ _ _ G), Ei; reflexivity).
  apply (average_gpu32 fused 2 rows ids 1 _ g ltac:(lia) G ltac:(discriminate)); auto.
  intros A PA. rewrite Es in PA. change (firsts_of [0; 0; 0]%Z) with [0] in PA. apply Permutation_sym, Permutation_length_1_inv in PA. subst A.
  split; [reflexivity|]. intros d Hd. rewrite Es, Ep. destruct d as [|[|d]]; [vm_compute; discriminate..|lia].
Qed.

(** * Concrete cases *)
Definition ex77_rows : list point := [[0#1;0#1];[1#2;1#4];[5#1;1#1]].
Definition ex77_ids : list nat := [0; 0; 1].
(** Two points in one cell of the first element and one point of the second: the
    averages, in an order that depends on the schedule. *)
Example C77_average_partial_ex_proof :
  forall fused gactive active, gactive <> 0 -> (forall k, active k <> 0) ->
    cloud GPU 0 2 ex77_rows ex77_ids 2 (seg 2 ex77_rows ex77_ids 2) /\ float32_batch 2 ex77_rows ex77_ids /\ valid_sizes 2 (map f32 [1#1]) /\
    mk_grid_gpu32 fused gactive 32 (seg 2 ex77_rows ex77_ids 2) [1#1] (fun g => forall n, ngrid n = g -> length (rdata (nranges n)) = 3 ->
      sample_average_gpu32 active 32 n (fun q => Permutation (combine (map (map Qred) (pts q)) (bids q)) [([5#1;1#1], 1); ([1#4;1#8], 0)])).
Proof.
  intros fused gactive active Hg Ha.
  assert (Hc : cloud GPU 0 2 ex77_rows ex77_ids 2 (seg 2 ex77_rows ex77_ids 2)) by (apply seg_cloud; repeat constructor).
  assert (Hv : valid_sizes 2 (map f32 [1#1])) by (split; [reflexivity|repeat constructor]).
  split; [exact Hc|]. split; [|split; [exact Hv|]].
  { intros i d Hi Hd. cbn in Hi. destruct i as [|[|[|i]]], d as [|[|d]]; try lia; vm_compute; reflexivity. }
  apply (mk_grid_gpu32_ok fused gactive 32 0 2 ex77_rows ex77_ids 2); auto; [unfold supported; lia|discriminate|apply cloud_is, Hc|].
  intros g G n En Hl.
  assert (En2 : exists a b, gnc g = [a; b]).
  { rewrite (dg_nc _ _ _ _ _ _ _ G). unfold num_cells32. rewrite (dg_min _ _ _ _ _ _ _ G), (dg_max _ _ _ _ _ _ _ G). vm_compute. eauto. }
  destruct En2 as (a & b & En2). assert (En3 := En2). rewrite (dg_nc _ _ _ _ _ _ _ G) in En3. unfold num_cells32 in En3.
  rewrite (dg_min _ _ _ _ _ _ _ G), (dg_max _ _ _ _ _ _ _ G) in En3. vm_compute in En3. injection En3 as <- <-.
  assert (Ek : exists k, gkeys g = [0; 0; Zpos k]%Z) by (rewrite (dg_keys _ _ _ _ _ _ _ G), En2; destruct fused; vm_compute; eauto). destruct Ek as (k & Ek).
  assert (Ei : gsidx g = [2; 0; 1]) by (rewrite (dg_sidx _ _ _ _ _ _ _ G), Ek; vm_compute; reflexivity).
  assert (Es : gskeys g = [Zpos k; 0; 0]%Z) by (rewrite (dg_skeys _ _ _ _ _ _ _ G), Ei, Ek; reflexivity).
  assert (Ep : gspts g = [[5#1;1#1];[0#1;0#1];[1#2;1#4]]) by (rewrite (dg_spts _ _ _ _ _ _ _ G), Ei; reflexivity).
  assert (Eb : gsbids g = [1; 0; 0]) by (rewrite (dg_sbids _ _ _ _ _ _ _ G), Ei; reflexivity).
  apply (average_gpu32 fused 2 ex77_rows ex77_ids 2 _ g ltac:(lia) G ltac:(discriminate)); auto.
  intros A PA. rewrite Es in PA. rewrite Es, Ep, Eb. unfold seg. cbn [pts bids].
  set (f := fun s => avg_point32 2 (map (fun j => nth j [[5#1;1#1];[0#1;0#1];[1#2;1#4]] []) (cell_points [Zpos k; 0; 0]%Z s))).
  transitivity (map (fun s => (map Qred (f s), nth s [1; 0; 0] 0)) A).
  { clear. induction A as [|x A IH]; [reflexivity|]. cbn [map combine]. now constructor. }
  rewrite (Permutation_map _ PA). subst f. assert (Er : (k =? k)%positive = true) by apply Pos.eqb_refl.
  assert (Ef : firsts_of [Zpos k; 0; 0]%Z = [0; 1]) by (vm_compute; reflexivity). rewrite Ef. cbn [map].
  assert (C0 : cell_points [Zpos k; 0; 0]%Z 0 = [0]) by (unfold cell_points; cbn; now rewrite Er).
  assert (C1 : cell_points [Zpos k; 0; 0]%Z 1 = [1; 2]) by reflexivity. rewrite C0, C1. vm_compute. apply Permutation_refl.
Qed.
(** Two float32 operations for the three equal points, then the division. *)
Example C77_equal_refuted_ex_proof : is_float32 ex76_x /\ avg_point32 2 (repeat [ex76_x; ex76_x] 3) <> [ex76_x; ex76_x].
Proof. split; [reflexivity|vm_compute; discriminate]. Qed.
