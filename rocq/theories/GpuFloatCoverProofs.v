(** Proofs that the averages of the CUDA operation in float32 stay near the points
    (C77). The statements are copied into PropertiesGpuFloatCover.v. *)
From Coq Require Import String List Arith ZArith NArith QArith Qround Qabs Lia Lqa Bool Permutation Sorted.
From Verif Require Import Tensor TensorFacts Spec PointCloud SpecCloud History PointCloudFacts QFacts CloudProofs
  Grid SpecGrid GridFacts GridProofs Neighbors SpecNeighbors NeighborFacts NeighborProofs Neighborhood NeighborhoodFacts Sampling SpecSampling SamplingFacts SamplingProofs
  Cuda CudaFacts AddFacts GpuGrid GpuGridFacts GpuGridProofs GpuScan SpecGpu GpuNeighbors GpuCountFacts SlotFacts GpuStoreFacts
  GpuNeighborFacts GpuOpFacts GpuRangeFacts GpuGeometry GpuSearchFacts GpuNeighborProofs GpuSampling UniqueFacts PoissonFacts SampleFacts SpecGpuSampling GpuSampleFacts GpuSampleProofs
  Float FloatFacts FloatGrid SpecFloat FloatGridFacts FloatProofs GpuFloat SpecGpuFloat GpuFloatProofs GpuFloatSearch GpuNearFacts GpuFloatSearchProofs GpuFloatSampling
  FloatNorm FloatNormProofs FloatAverage SpecFloatAverage FloatAverageProofs GpuFloatAverage SpecGpuFloatAverage GpuFloatAverageProofs.
Import ListNotations.
Local Open Scope nat_scope.

(** * Points of one cell *)
Lemma device_width fused lo c x y n (m : Z) : (pow2 (-100) <= c)%Q -> (c <= pow2 100)%Q ->
  (Qabs lo <= inject_Z m * c)%Q -> (Qabs x <= inject_Z m * c)%Q -> (Qabs y <= inject_Z m * c)%Q ->
  (lo <= x)%Q -> (lo <= y)%Q -> (1 <= n)%Z -> (position32 lo c x <= inject_Z n)%Q -> (position32 lo c y <= inject_Z n)%Q ->
  Z.min (Z.max (Qfloor (device_position32 fused lo c x)) 0) (n - 1) = Z.min (Z.max (Qfloor (device_position32 fused lo c y)) 0) (n - 1) ->
  (Qabs (x - y) <= c * (1 + (inject_Z m + 1) / 1048576))%Q.
Proof.
  intros H1 H2 Hlo Hx Hy Lx Ly Hn Tx Ty E. assert (Hp : (0 < c)%Q) by (eapply Qlt_le_trans; [|exact H1]; reflexivity).
  assert (Hi : (0 < / c)%Q) by now apply Qinv_lt_0_compat.
  assert (A : forall z w, (Qabs z <= w * c)%Q -> (Qabs (z / c) <= w)%Q).
  { intros z w H. unfold Qdiv. rewrite Qabs_Qmult, (Qabs_pos (/ c)) by lra. apply Qle_shift_div_r; [exact Hp|exact H]. }
  apply A in Hlo. apply A in Hx. apply A in Hy.
  assert (Bt : forall z, (Qabs (z / c) <= inject_Z m)%Q -> ((z - lo) / c <= 2 * inject_Z m)%Q).
  { intros z Hz. setoid_replace ((z - lo) / c)%Q with (z / c - lo / c)%Q by (field; lra). apply Qabs_Qle_condition in Hz, Hlo. lra. }
  assert (Bx := Bt x Hx). assert (By := Bt y Hy).
  assert (Px : (0 <= (x - lo) / c)%Q) by (apply Qle_shift_div_l; [exact Hp|lra]).
  assert (Py : (0 <= (y - lo) / c)%Q) by (apply Qle_shift_div_l; [exact Hp|lra]).
  pose proof (C72_position_proof fused lo c x H1 H2) as Ex. pose proof (C72_position_proof fused lo c y H1 H2) as Ey.
  pose proof (quotient_err (x - lo) c H1) as Qx. pose proof (quotient_err (y - lo) c H1) as Qy. fold (position32 lo c x) in Qx. fold (position32 lo c y) in Qy.
  rewrite (Qabs_pos _ Px) in Qx. rewrite (Qabs_pos _ Py) in Qy.
  assert (W : (Qabs ((x - lo) / c - (y - lo) / c) <= 1 + (inject_Z m + 1) / 1048576)%Q).
  { set (M := inject_Z m) in *. set (N := inject_Z n) in *. set (px := device_position32 fused lo c x) in *. set (py := device_position32 fused lo c y) in *.
    set (tx := ((x - lo) / c)%Q) in *. set (ty := ((y - lo) / c)%Q) in *. set (qx := position32 lo c x) in *. set (qy := position32 lo c y) in *.
    set (ax := Qabs (x / c)) in *. set (ay := Qabs (y / c)) in *. set (al := Qabs (lo / c)) in *.
    setoid_replace ((M + 1) / 1048576)%Q with ((M + 1) * (1 # 1048576))%Q by field.
    setoid_replace ((ax + al) / 4194304 + 1 / 1099511627776)%Q with ((ax + al) * (1 # 4194304) + (1 # 1099511627776))%Q in Ex by field.
    setoid_replace ((ay + al) / 4194304 + 1 / 1099511627776)%Q with ((ay + al) * (1 # 4194304) + (1 # 1099511627776))%Q in Ey by field.
    apply Qabs_Qle_condition in Ex, Ey, Qx, Qy. apply Qabs_Qle_condition.
    pose proof (Qfloor_le px) as F1. pose proof (Qlt_floor px) as F2. pose proof (Qfloor_le py) as G1. pose proof (Qlt_floor py) as G2.
    rewrite inject_Z_plus in F2, G2. change (inject_Z 1) with 1%Q in F2, G2.
    assert (HM : (0 <= M)%Q) by lra.
    assert (Cs : Qfloor px = Qfloor py \/ (Qfloor px <= 0 /\ Qfloor py <= 0)%Z \/ (n - 1 <= Qfloor px /\ n - 1 <= Qfloor py)%Z \/ n = 1%Z) by lia.
    clear E. destruct Cs as [Cs|[[C1 C2]|[[C1 C2]|C1]]].
    - rewrite Cs in F1, F2. split; lra.
    - rewrite Zle_Qle in C1, C2. change (inject_Z 0) with 0%Q in C1, C2. split; lra.
    - rewrite Zle_Qle in C1, C2. unfold Z.sub in C1, C2. rewrite inject_Z_plus in C1, C2. change (inject_Z (- (1))) with (-(1))%Q in C1, C2. fold N in C1, C2. split; lra.
    - assert (EN : (N == 1)%Q) by (unfold N; rewrite C1; reflexivity). split; lra. }
  assert (Ed : (x - y == ((x - lo) / c - (y - lo) / c) * c)%Q) by (field; lra).
  rewrite Ed, Qabs_Qmult, (Qabs_pos c) by lra. rewrite (Qmult_comm c). apply Qmult_le_compat_r; [exact W|lra].
Qed.

(** The mean of points that differ from one of them by at most [w]. *)
Lemma near_member D rows grp x i d w m : near_mean D rows grp x -> grp <> [] -> d < D ->
  (forall j, In j grp -> (Qabs (xc rows j d - xc rows i d) <= w)%Q) -> (forall j, In j grp -> (Qabs (xc rows j d) <= m)%Q) ->
  (Qabs (nth d x 0 - xc rows i d) <= w + m * (inject_Z (Z.of_nat (length grp)) / 8388608) + pow2 (-148))%Q.
Proof.
  intros (exact & (M1 & M2 & M3) & M4 & M5) Hne Hd Hw Hm. specialize (M3 d Hd). specialize (M5 d m Hd Hm).
  assert (Hb2 : forall j, In j grp -> (xc rows i d - w <= xc rows j d /\ xc rows j d <= xc rows i d + w)%Q).
  { intros j Hj. assert (X := Hw j Hj). apply Qabs_Qle_condition in X. lra. }
  assert (Hmean : (Qabs (nth d exact 0 - xc rows i d) <= w)%Q).
  { assert (Hpos : (0 < inject_Z (Z.of_nat (length grp)))%Q) by (destruct grp; [congruence|]; cbn [length]; unfold Qlt; cbn; lia).
    assert (S1 : forall l a b, (forall j, In j l -> a <= xc rows j d /\ xc rows j d <= b)%Q ->
      (inject_Z (Z.of_nat (length l)) * a <= fold_right Qplus 0 (map (fun i => xc rows i d) l) /\ fold_right Qplus 0 (map (fun i => xc rows i d) l) <= inject_Z (Z.of_nat (length l)) * b)%Q).
    { clear. induction l as [|x l IH]; intros a b H; cbn [length map fold_right]; [change (inject_Z (Z.of_nat 0)) with 0%Q; lra|].
      rewrite Nat2Z.inj_succ, <- Z.add_1_r, inject_Z_plus. change (inject_Z 1) with 1%Q. destruct (H x (or_introl eq_refl)). destruct (IH a b); [intros; apply H; now right|].
      set (s := fold_right Qplus 0%Q _) in *. set (N := inject_Z _) in *. lra. }
    destruct (S1 grp _ _ Hb2) as [T1 T2]. rewrite <- M3 in T1, T2. apply Qmult_le_l in T1, T2; [|exact Hpos..]. apply Qabs_Qle_condition. lra. }
  assert (X : (Qabs (nth d x 0 - xc rows i d) <= Qabs (nth d x 0 - nth d exact 0) + Qabs (nth d exact 0 - xc rows i d))%Q).
  { setoid_replace (nth d x 0 - xc rows i d)%Q with ((nth d x 0 - nth d exact 0) + (nth d exact 0 - xc rows i d))%Q by ring. apply Qabs_triangle. }
  lra.
Qed.

Section Cover.
  Context (fused : bool) (D : nat) (rows : list point) (ids : list nat) (B : nat) (cells : point) (g : grid).
  Hypothesis G : is_device_grid fused D rows ids B cells g.
  Hypothesis Hf : float32_batch D rows ids.

  Lemma dc_len : length rows = length ids.
  Proof using G. destruct (dg_cloud _ _ _ _ _ _ _ G) as (eps & C). exact (ic_len _ _ _ _ _ _ _ C). Qed.
  Lemma dc_lo i d : i < length ids -> d < D -> (coord (lo32 D rows ids (nth i ids 0%nat)) d <= xc rows i d)%Q.
  Proof using G Hf.
    intros Hi Hd. unfold lo32. rewrite coord_map by now rewrite red_min_length.
    pose proof (lo_le 0 D rows ids dc_len _ i d Hd Hi eq_refl) as H. unfold lo_of in H.
    rewrite coord_map in H by now rewrite red_min_length.
    pose proof (Hf i d Hi Hd : (f32 (xc rows i d) == xc rows i d)%Q) as E. apply Qle_trans with (f32 (xc rows i d)); [|lra].
    apply f32_mono. assert (0 < margin32)%Q by reflexivity. lra.
  Qed.
  Lemma dc_hi i d : i < length ids -> d < D -> (xc rows i d <= coord (hi32 D rows ids (nth i ids 0%nat)) d)%Q.
  Proof using G Hf.
    intros Hi Hd. unfold hi32. rewrite coord_map by now rewrite red_max_length.
    pose proof (hi_ge 0 D rows ids dc_len _ i d Hd Hi eq_refl) as H. unfold hi_of in H.
    rewrite coord_map in H by now rewrite red_max_length.
    pose proof (Hf i d Hi Hd : (f32 (xc rows i d) == xc rows i d)%Q) as E. apply Qle_trans with (f32 (xc rows i d)); [lra|].
    apply f32_mono. assert (0 < margin32)%Q by reflexivity. lra.
  Qed.
  Lemma dc_top i d : i < length ids -> d < D ->
    (position32 (coord (lo32 D rows ids (nth i ids 0%nat)) d) (coord cells d) (xc rows i d) <= inject_Z (nth d (gnc g) 0%Z))%Q.
  Proof using G Hf.
    intros Hi Hd. set (lo := lo32 D rows ids (nth i ids 0%nat)). set (hi := hi32 D rows ids (nth i ids 0%nat)).
    set (t := f32 (f32 (coord hi d - coord lo d) / coord cells d)). apply Qle_trans with t.
    { apply f32_mono, div_mono; [apply (dg_cells_pos _ _ _ _ _ _ _ G d Hd)|]. apply f32_mono. pose proof (dc_hi i d Hi Hd) as U. fold hi in U. lra. }
    apply Qceiling_le_iff. rewrite (dg_nc _ _ _ _ _ _ _ G). unfold num_cells32. rewrite QFacts.nth_map_seq by exact Hd.
    set (l := map _ (combine _ _)).
    assert (Hin : In (Qceiling t) l).
    { unfold l. rewrite (dg_min _ _ _ _ _ _ _ G), (dg_max _ _ _ _ _ _ _ G), combine_map_map, map_map. apply in_map_iff.
      exists (nth i ids 0%nat). split; [reflexivity|]. apply in_seq. destruct (dg_cloud _ _ _ _ _ _ _ G) as (eps & C).
      pose proof (ic_ids _ _ _ _ _ _ _ C) as HF. rewrite Forall_forall in HF. assert (nth i ids 0 < B) by (apply HF, nth_In, Hi). lia. }
    pose proof (proj1 (fold_max_le l int32_min _) (Z.le_refl _)) as [_ H]. specialize (H _ Hin). lia.
  Qed.

  (** The averages of a grid are near the points of their cells. *)
  Lemma dc_cover (m : Z) out out_ids :
    (forall d, d < D -> (pow2 (-100) <= nth d cells 0)%Q /\ (nth d cells 0 <= pow2 100)%Q) ->
    (forall i d, i < length ids -> d < D -> (Qabs (xc rows i d) <= inject_Z m * nth d cells 0)%Q) ->
    (forall lo i d, i < length ids -> d < D -> lower_corner32 D rows ids (nth i ids 0%nat) lo -> (Qabs (nth d lo 0) <= inject_Z m * nth d cells 0)%Q) ->
    device_average32 fused D cells (gnc g) rows ids out out_ids ->
    let near x i := forall d, d < D ->
      (Qabs (nth d x 0 - xc rows i d) <= nth d cells 0 * (1 + (inject_Z m + 1) / 1048576) +
         inject_Z m * nth d cells 0 * (inject_Z (Z.of_nat (length ids)) / 8388608) + pow2 (-148))%Q in
    (forall i, i < length ids -> exists k, k < length out_ids /\ nth k out_ids 0 = nth i ids 0 /\ near (nth k out []) i) /\
    (forall k, k < length out_ids -> exists i, i < length ids /\ nth k out_ids 0 = nth i ids 0 /\ near (nth k out []) i).
  Proof using G Hf.
    intros Hcs Hx Hcorner (lo & groups & Hlo & HG & L1 & L2 & Hk) near. cbv zeta in *. destruct HG as (HP & HNe & HI).
    assert (Hil : forall k i, k < length groups -> In i (nth k groups []) -> i < length ids).
    { intros k i Hk' Hi. assert (In i (concat groups)) by (apply in_concat; exists (nth k groups []); split; [now apply nth_In|exact Hi]).
      apply (Permutation_in _ HP), in_seq in H. lia. }
    assert (Hw : forall k i j d, k < length groups -> In i (nth k groups []) -> In j (nth k groups []) -> d < D ->
      (Qabs (xc rows j d - xc rows i d) <= nth d cells 0 * (1 + (inject_Z m + 1) / 1048576))%Q).
    { intros k i j d Hk' Hi Hj Hd. assert (Hi' := Hil _ _ Hk' Hi). assert (Hj' := Hil _ _ Hk' Hj).
      destruct (proj1 (HI i j Hi' Hj')) as [Eb Es]; [exists (nth k groups []); split; [now apply nth_In|now split]|]. specialize (Es d Hd). rewrite <- Eb in Es.
      destruct (Hcs d Hd) as [C1 C2].
      assert (Hbi : In (nth i ids 0%nat) ids) by (apply nth_In; exact Hi'). assert (Hlb := Hlo _ Hbi).
      assert (El : (nth d (lo (nth i ids 0%nat)) 0 == coord (lo32 D rows ids (nth i ids 0%nat)) d)%Q)
        by (apply (corner32_unique D rows ids (nth i ids 0%nat)); [exact Hd|exact Hlb|apply lo32_corner; [apply dc_len|exact Hbi]]).
      assert (Low : forall a, a < length ids -> nth i ids 0 = nth a ids 0 -> (nth d (lo (nth i ids 0%nat)) 0 <= xc rows a d)%Q).
      { intros a Ha Ea. rewrite El, Ea. now apply dc_lo. }
      assert (Top : forall a, a < length ids -> nth i ids 0 = nth a ids 0 -> (position32 (nth d (lo (nth i ids 0%nat)) 0) (nth d cells 0) (xc rows a d) <= inject_Z (nth d (gnc g) 0%Z))%Q).
      { intros a Ha Ea. eapply Qle_trans; [|apply (dc_top a d Ha Hd)]. rewrite <- Ea. apply Qle_lteq. right. unfold position32. apply f32_comp.
        rewrite (f32_comp (xc rows a d - nth d (lo (nth i ids 0%nat)) 0)%Q (xc rows a d - coord (lo32 D rows ids (nth i ids 0%nat)) d)%Q) by (rewrite El; reflexivity). reflexivity. }
      assert (Hn1 : (1 <= nth d (gnc g) 0)%Z) by (rewrite (dg_nc _ _ _ _ _ _ _ G); now apply num_cells32_pos).
      apply (device_width fused (nth d (lo (nth i ids 0%nat)) 0%Q) (nth d cells 0%Q) _ _ (nth d (gnc g) 0%Z)); auto.
      now apply (Hcorner _ i). }
    assert (Hnear : forall k i, k < length groups -> In i (nth k groups []) -> near (nth k out []) i).
    { intros k i Hk' Hi d Hd. destruct (Hk k Hk') as (HM & _). set (grp := nth k groups []) in *.
      assert (Hgl : length grp <= length ids).
      { rewrite <- (seq_length (length ids) 0), <- (Permutation_length HP). unfold grp. clear - Hk'. revert k Hk'. induction groups as [|x l IH]; intros k Hk; [cbn in Hk; lia|].
        cbn [concat]. rewrite app_length. destruct k as [|k]; [cbn; lia|]. cbn [length] in Hk. specialize (IH k ltac:(lia)). cbn [nth]. lia. }
      assert (X := near_member D rows grp (nth k out []) i d (nth d cells 0 * (1 + (inject_Z m + 1) / 1048576))%Q (inject_Z m * nth d cells 0)%Q HM
        ltac:(intros Z0; rewrite Z0 in Hi; destruct Hi) Hd (fun j Hj => Hw k i j d Hk' Hi Hj Hd) (fun j Hj => Hx j d (Hil k j Hk' Hj) Hd)).
      assert (Hm0 : (0 <= inject_Z m * nth d cells 0)%Q). { assert (Y := Hx i d (Hil k i Hk' Hi) Hd). pose proof (Qabs_nonneg (xc rows i d)). lra. }
      assert (Hc2 : (inject_Z m * nth d cells 0 * (inject_Z (Z.of_nat (length grp)) / 8388608) <= inject_Z m * nth d cells 0 * (inject_Z (Z.of_nat (length ids)) / 8388608))%Q).
      { apply Qmult_le_l'; [exact Hm0|]. apply Qmult_le_compat_r; [rewrite <- Zle_Qle; lia|discriminate]. }
      lra. }
    split.
    - intros i Hi. destruct (proj2 (HI i i Hi Hi)) as (grp & Hg & Hig & _); [split; [reflexivity|intros; reflexivity]|].
      apply (In_nth _ _ []) in Hg as (k & Hk' & Eg). exists k. split; [congruence|]. subst grp. destruct (Hk k Hk') as (_ & X & _). split; [now apply X|]. now apply Hnear.
    - intros k Hk0. rewrite L2 in Hk0. destruct (nth k groups []) as [|i r] eqn:Eg.
      + exfalso. rewrite Forall_forall in HNe. apply (HNe (nth k groups [])); [now apply nth_In|exact Eg].
      + assert (Hi : In i (nth k groups [])) by (rewrite Eg; now left). exists i. split; [now apply (Hil k)|]. destruct (Hk k Hk0) as (_ & X & _). split; [now apply X|]. now apply Hnear.
  Qed.
End Cover.

(** C77, cover. For clouds whose points and lower corners are within [m] cells of
    the origin, every point is near a returned point of its element, and every
    returned point near a point: the coordinates differ by no more than the size
    of a cell, enlarged by the rounding errors of the cells and of the average.
    Partial: the size of the cell itself is exceeded. *)
Lemma C77_cover_partial_proof :
  forall fused gactive active warp eps D rows ids B p cs (m : Z),
    gactive <> 0 -> (forall k, active k <> 0) -> warp <> 0 -> 2 <= D <= 6 -> ids <> [] ->
    cloud GPU eps D rows ids B p -> float32_batch D rows ids -> (Z.of_nat (length ids) <= 2 ^ 23)%Z -> valid_sizes D (map f32 cs) ->
    let size d := nth d (all_dims D (map f32 cs)) 0%Q in
    (forall d, d < D -> (pow2 (-100) <= size d)%Q /\ (size d <= pow2 100)%Q) ->
    (forall i d, i < length ids -> d < D -> (Qabs (xc rows i d) <= inject_Z m * size d)%Q) ->
    (forall lo i d, i < length ids -> d < D -> lower_corner32 D rows ids (nth i ids 0) lo -> (Qabs (nth d lo 0) <= inject_Z m * size d)%Q) ->
    let near x i := forall d, d < D ->
      (Qabs (nth d x 0 - xc rows i d) <= size d * (1 + (inject_Z m + 1) / 1048576) +
         inject_Z m * size d * (inject_Z (Z.of_nat (length ids)) / 8388608) + pow2 (-148))%Q in
    mk_grid_gpu32 fused gactive warp p cs (fun g => forall n,
      ngrid n = g -> length (rdata (nranges n)) = length ids ->
      sample_average_gpu32 active warp n (fun q =>
        (forall i, i < length ids -> exists k, k < length (bids q) /\ nth k (bids q) 0 = nth i ids 0 /\ near (nth k (pts q) []) i) /\
        (forall k, k < length (bids q) -> exists i, i < length ids /\ nth k (bids q) 0 = nth i ids 0 /\ near (nth k (pts q) []) i))).
Proof.
  intros fused gactive active warp eps D rows ids B p cs m Hg Ha Hw HD Hne Hc Hf HN Hv size Hcs Hx Hlo near. apply cloud_is in Hc.
  apply (mk_grid_gpu32_ok fused gactive warp eps D rows ids B); auto.
  intros g G n En Hl. apply (average_gpu32 fused D rows ids B _ g HD G Hne); auto.
  intros A PA. apply (dc_cover fused D rows ids B _ g G Hf m); [exact Hcs|exact Hx|exact Hlo|]. apply (da_average fused D rows ids B _ g HD G A Hf HN PA).
Qed.

(** * Concrete case *)
(** The points of C77_average_partial_ex meet the hypotheses with [m = 5]. *)
Example C77_cover_partial_ex_proof :
  cloud GPU 0 2 ex77_rows ex77_ids 2 (seg 2 ex77_rows ex77_ids 2) /\ float32_batch 2 ex77_rows ex77_ids /\ valid_sizes 2 (map f32 [1#1]) /\
  (forall d, d < 2 -> (pow2 (-100) <= nth d (all_dims 2 (map f32 [1#1])) 0)%Q /\ (nth d (all_dims 2 (map f32 [1#1])) 0 <= pow2 100)%Q) /\
  (forall i d, i < 3 -> d < 2 -> (Qabs (xc ex77_rows i d) <= inject_Z 5 * nth d (all_dims 2 (map f32 [1#1])) 0)%Q) /\
  (forall lo i d, i < 3 -> d < 2 -> lower_corner32 2 ex77_rows ex77_ids (nth i ex77_ids 0) lo -> (Qabs (nth d lo 0) <= inject_Z 5 * nth d (all_dims 2 (map f32 [1#1])) 0)%Q).
Proof.
  split; [apply seg_cloud; repeat constructor|]. split; [|split; [split; [reflexivity|repeat constructor]|split; [|split]]].
  - intros i d Hi Hd. cbn in Hi. destruct i as [|[|[|i]]], d as [|[|d]]; try lia; vm_compute; reflexivity.
  - intros [|[|d]] Hd; try lia; split; vm_compute; discriminate.
  - intros [|[|[|i]]] [|[|d]] Hi Hd; try lia; vm_compute; discriminate.
  - intros lo i d Hi Hd H.
    rewrite (corner32_unique 2 ex77_rows ex77_ids _ _ _ d Hd H (lo32_corner 2 ex77_rows ex77_ids _ eq_refl (nth_In ex77_ids 0 Hi))).
    clear H. destruct i as [|[|[|i]]], d as [|[|d]]; try lia; vm_compute; discriminate.
Qed.
