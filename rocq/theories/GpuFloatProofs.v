(** Proofs about the CUDA grid operation in float32 (C72). The statements are
    copied into PropertiesGpuFloat.v. *)
From Coq Require Import List Arith ZArith QArith Qround Qabs Lia Lqa Bool Permutation.
From Verif Require Import Tensor TensorFacts Spec PointCloud SpecCloud History PointCloudFacts QFacts CloudProofs
  Grid SpecGrid GridFacts GridProofs Cuda CudaFacts GpuGrid GpuGridFacts GpuGridProofs
  Neighbors NeighborFacts NeighborProofs Float FloatFacts FloatGrid SpecFloat KeyGridFacts FloatGridFacts FloatProofs GpuFloat SpecGpuFloat.
Import ListNotations.
Local Open Scope Z_scope.

(** * The grid *)
Definition dcell fused D rows ids (cells : point) (nc : list Z) (i d : nat) : Z :=
  Z.min (Z.max (Qfloor (device_position32 fused (coord (lo32 D rows ids (nth i ids 0%nat)) d) (coord cells d) (coord (nth i rows []) d))) 0) (nth d nc 0 - 1).

Lemma device_position_is fused x c lo : gpu_position32 fused x (f32 (/ c)) (f32 (lo / c)) = device_position32 fused lo c x.
Proof. destruct fused; reflexivity. Qed.

Lemma num_cells32_length D a cells : length (num_cells32 D a cells) = D.
Proof. unfold num_cells32. now rewrite map_length, seq_length. Qed.
Lemma num_cells32_pos D a cells d : (d < D)%nat -> 1 <= nth d (num_cells32 D a cells) 0.
Proof. intros H. unfold num_cells32. rewrite nth_map_seq by auto. lia. Qed.

Lemma compute_keys_gpu32_ok fused active warp D rows ids B a nc cells (P : list Z -> Prop) :
  active <> 0%nat -> warp <> 0%nat -> supported D -> ids <> [] ->
  length rows = length ids -> Forall (fun b => (b < B)%nat) ids ->
  length cells = D -> length nc = D -> amin a = map (lo32 D rows ids) (seq 0 B) ->
  P (map (fun i => Z.of_nat (nth i ids 0%nat) * zprod nc + radix nc (map (dcell fused D rows ids cells nc i) (seq 0 D))) (seq 0 (length ids))) ->
  compute_keys_gpu32 fused active warp D a nc cells rows ids P.
Proof.
  intros Ha Hw HD Hne HL HB HC Hnc Hmin HPk. unfold compute_keys_gpu32, compute_keys_op32.
  assert (Hn : length ids <> 0%nat) by (destruct ids; cbn; congruence).
  split; [auto|]. split; [auto|]. split; [|split; [auto|split; [now rewrite map_length|]]].
  { rewrite Forall_forall. intros x Hx. apply in_map_iff in Hx. destruct Hx as (lo & <- & _). now rewrite map_length, seq_length. }
  intros out Lo. cbv zeta. split; [apply num_blocks_pos; lia|].
  eapply every_run_weaken; [|eapply (write_body_runs _ (fun i => Z.of_nat (nth i ids 0%nat) * zprod nc + radix nc (map (dcell fused D rows ids cells nc i) (seq 0 D))))].
  - intros m ->. now rewrite HL.
  - apply num_blocks_pos; lia.
  - lia.
  - auto.
  - intros i Hi. eexists. split; [reflexivity|]. intros m. cbv beta. unfold rd.
    assert (Hb : (nth i ids 0 < B)%nat) by (rewrite Forall_forall in HB; apply HB, nth_In; lia).
    rewrite (nth_error_nth' ids i 0%nat) by lia. cbn [obind]. rewrite (nth_error_nth' rows i []) by lia. cbn [obind].
    rewrite Hmin, map_map, nth_error_map. rewrite (nth_error_nth' (seq 0 B) (nth i ids 0%nat) 0%nat) by (rewrite seq_length; auto).
    rewrite seq_nth by auto. cbn [option_map obind Nat.add]. f_equal.
    rewrite gpu_key_radix by (unfold gpu_cell32; rewrite map_length, seq_length; auto).
    do 2 f_equal. unfold gpu_cell32. apply map_ext_in. intros d Hd. apply in_seq in Hd. unfold dcell. do 3 f_equal.
    rewrite <- device_position_is. f_equal.
    + unfold coord. rewrite (nth_indep _ 0%Q (f32 (/ 0))%Q) by (rewrite map_length; lia). now rewrite (map_nth (fun c => f32 (/ c))%Q).
    + unfold coord at 1. rewrite nth_map_seq by lia. reflexivity.
Qed.

Record is_device_grid fused (D : nat) (rows : list point) (ids : list nat) (B : nat) (cells : point) (g : grid) : Prop := {
  dg_cloud : exists eps, is_cloud GPU eps D rows ids B (gcloud g);
  dg_cells : gcells g = cells;
  dg_cells_pos : forall d, (d < D)%nat -> (0 < coord cells d)%Q;
  dg_min : amin (gbox g) = map (lo32 D rows ids) (seq 0 B);
  dg_max : amax (gbox g) = map (hi32 D rows ids) (seq 0 B);
  dg_nc : gnc g = num_cells32 D (gbox g) cells;
  dg_keys : gkeys g = map (fun i => Z.of_nat (nth i ids 0%nat) * zprod (gnc g) +
      radix (gnc g) (map (dcell fused D rows ids cells (gnc g) i) (seq 0 D))) (seq 0 (length ids));
  dg_sidx : gsidx g = argsort_desc (gkeys g);
  dg_skeys : gskeys g = map (fun i => nth i (gkeys g) 0) (gsidx g);
  dg_spts : gspts g = map (fun i => nth i rows []) (gsidx g);
  dg_sbids : gsbids g = map (fun i => nth i ids 0%nat) (gsidx g);
  dg_ds : gds g = None }.

Lemma mk_grid_gpu32_ok fused active warp eps D rows ids B p cs (P : grid -> Prop) :
  active <> 0%nat -> warp <> 0%nat -> supported D -> ids <> [] ->
  is_cloud GPU eps D rows ids B p -> valid_sizes D (map f32 cs) ->
  (forall g, is_device_grid fused D rows ids B (bcast D (map f32 cs)) g -> P g) ->
  mk_grid_gpu32 fused active warp p cs P.
Proof.
  intros Ha Hw HD Hne Hc Hv HP. pose proof Hc as [H1 H2 H3 H4 H5 H6 H7 H8].
  pose proof (valid_sizes_pos D _ Hv) as [Hl Hp]. unfold mk_grid_gpu32. rewrite H4.
  rewrite make_aabb32_data by (rewrite ?H1, ?H2, ?H3; auto). rewrite H1, H2, H3, H4.
  eexists. split; [reflexivity|]. split; [exact Hl|]. split; [apply Hv|]. cbv zeta.
  set (a := AABB _ _ _). set (cells := bcast D (map f32 cs)) in *.
  apply (compute_keys_gpu32_ok fused active warp D rows ids B); auto using num_cells32_length.
  set (nc := num_cells32 D a cells). set (keys := map _ (seq 0 (length ids))).
  assert (Lk : length keys = length ids) by (unfold keys; rewrite map_length, seq_length; reflexivity).
  pose proof (argsort_lt (fun a b => b <=? a) keys) as Hlt. fold (argsort_desc keys) in Hlt.
  rewrite (gather_map keys _ 0) by exact Hlt.
  rewrite (gather_map rows _ []) by (rewrite H5, <- Lk; exact Hlt).
  rewrite (gather_map ids _ 0%nat) by (rewrite <- Lk; exact Hlt).
  eexists. eexists. eexists. do 3 (split; [reflexivity|]). apply HP. constructor; cbn; eauto.
Qed.

(** C72, keys. For every float32 cloud, device and schedule the cell of a point,
    as the CUDA operation computes it in float32, is one of the cells of the
    grid; the key numbers element and cell, lies in the range of the grid, and is
    the same exactly for points of the same element and cell. No point has a key
    of the cell beyond the last one (as with the fallback, C54). *)
Lemma C72_keys_proof :
  forall fused active warp eps D rows ids B p cs,
    active <> 0%nat -> warp <> 0%nat -> (2 <= D <= 6)%nat -> ids <> [] ->
    cloud GPU eps D rows ids B p -> valid_sizes D (map f32 cs) ->
    mk_grid_gpu32 fused active warp p cs (fun g =>
      gcells g = all_dims D (map f32 cs) /\
      exists lo : nat -> list Q,
        (forall b, In b ids -> lower_corner32 D rows ids b (lo b)) /\
        let c i d := Z.min (Z.max (Qfloor (device_position32 fused (nth d (lo (nth i ids 0%nat)) 0%Q) (nth d (gcells g) 0%Q) (xc rows i d))) 0)
                           (nth d (gnc g) 0 - 1) in
        forall i, (i < length ids)%nat ->
          (forall d, (d < D)%nat -> 0 <= c i d < nth d (gnc g) 0) /\
          nth i (gkeys g) 0 = Z.of_nat (nth i ids 0%nat) * product (gnc g)
              + total (map (fun d => c i d * product (skipn (S d) (gnc g))) (seq 0 D)) /\
          0 <= nth i (gkeys g) 0 < Z.of_nat B * product (gnc g) /\
          forall j, (j < length ids)%nat ->
            (nth i (gkeys g) 0 = nth j (gkeys g) 0 <->
             nth i ids 0%nat = nth j ids 0%nat /\ forall d, (d < D)%nat -> c i d = c j d)).
Proof.
  intros fused active warp eps D rows ids B p cs Ha Hw HD Hne Hc Hv. apply cloud_is in Hc.
  change (all_dims D (map f32 cs)) with (bcast D (map f32 cs)).
  eapply mk_grid_gpu32_ok; eauto. intros g G. pose proof Hc as [_ _ _ _ HL HB _ _].
  split; [exact (dg_cells _ _ _ _ _ _ _ G)|].
  exists (lo32 D rows ids). split; [intros b Hb; now apply lo32_corner|]. cbv zeta. rewrite (dg_cells _ _ _ _ _ _ _ G).
  set (cells := bcast D (map f32 cs)) in *. set (c := dcell fused D rows ids cells (gnc g)).
  assert (Lnc : length (gnc g) = D) by (rewrite (dg_nc _ _ _ _ _ _ _ G); apply num_cells32_length).
  assert (Pnc : forall d, (d < D)%nat -> 1 <= nth d (gnc g) 0) by (intros d Hd; rewrite (dg_nc _ _ _ _ _ _ _ G); now apply num_cells32_pos).
  assert (Ec : forall i d, (d < D)%nat -> 0 <= c i d < nth d (gnc g) 0) by (intros i d Hd; specialize (Pnc d Hd); unfold c, dcell; lia).
  assert (Ein : forall i, in_cells (gnc g) (map (c i) (seq 0 D))).
  { intros i. rewrite <- Lnc. apply in_cells_seq. intros d Hd. apply Ec. lia. }
  assert (Ek : forall i, (i < length ids)%nat -> nth i (gkeys g) 0 = Z.of_nat (nth i ids 0%nat) * zprod (gnc g) + radix (gnc g) (map (c i) (seq 0 D))).
  { intros i Hi. rewrite (dg_keys _ _ _ _ _ _ _ G). now rewrite QFacts.nth_map_seq by exact Hi. }
  assert (HP : 1 <= zprod (gnc g)).
  { apply zprod_pos. intros x Hx. apply (In_nth _ _ 0) in Hx as (d & Hd & <-). apply Pnc. lia. }
  intros i Hi. split; [|split; [|split]].
  - intros d Hd. apply Ec. exact Hd.
  - rewrite (Ek i Hi). f_equal. rewrite <- radix_sum by (now rewrite map_length, seq_length).
    rewrite Lnc. unfold zsum, total. f_equal. apply map_ext_in.
    intros d Hd. apply in_seq in Hd. rewrite nth_map_seq by lia. reflexivity.
  - rewrite (Ek i Hi). pose proof (radix_range _ _ (Ein i)).
    assert (Hb : (nth i ids 0 < B)%nat) by (rewrite Forall_forall in HB; apply HB, nth_In, Hi).
    change (product (gnc g)) with (zprod (gnc g)). nia.
  - intros j Hj. rewrite (Ek i Hi), (Ek j Hj).
    pose proof (radix_range _ _ (Ein i)). pose proof (radix_range _ _ (Ein j)). split.
    + intros E. assert (Hb : nth i ids 0%nat = nth j ids 0%nat) by nia. split; [exact Hb|].
      rewrite Hb in E. assert (Hr : radix (gnc g) (map (c i) (seq 0 D)) = radix (gnc g) (map (c j) (seq 0 D))) by lia.
      apply radix_inj in Hr; [|now apply Ein|now apply Ein].
      intros d Hd. change (c i d = c j d). rewrite <- (nth_map_seq (c i) D d 0 Hd), <- (nth_map_seq (c j) D d 0 Hd). now rewrite Hr.
    + intros [E Hcc]. rewrite E. do 2 f_equal. apply map_ext_in. intros d Hd. apply in_seq in Hd. apply (Hcc d). lia.
Qed.

(** * The error of the position *)
Lemma abs_close a b e : (Qabs (a - b) <= e)%Q -> (a - b <= e /\ b - a <= e)%Q.
Proof. intros H. apply Qabs_Qle_condition in H. lra. Qed.

Lemma position_err fused lo c x : (pow2 (-100) <= c)%Q -> (c <= pow2 100)%Q ->
  (Qabs (device_position32 fused lo c x - (x - lo) / c) <= (Qabs (x / c) + Qabs (lo / c)) * (1 # 4194304) + (1 # 1099511627776))%Q.
Proof.
  intros H1 H2. assert (Hp : (0 < c)%Q) by (eapply Qlt_le_trans; [|exact H1]; reflexivity).
  set (t := (x / c)%Q). set (l := (lo / c)%Q).
  assert (Et : ((x - lo) / c == t - l)%Q) by (unfold t, l; field; lra). rewrite Et.
  unfold device_position32. set (i := f32 (/ c)). cbv zeta. fold l.
  assert (Hi : (Qabs (i - / c) <= / c * (67108865 # 1125899906842624))%Q).
  { pose proof (f32_err (/ c)) as He. assert (Hi0 : (0 < / c)%Q) by now apply Qinv_lt_0_compat.
    rewrite (Qabs_pos (/ c)) in He by lra. fold i in He. change (pow2 (-24)) with (1 # 16777216) in He.
    assert (Hq : (pow2 (-100) <= / c)%Q).
    { apply Qmult_lt_0_le_reg_r with c; [exact Hp|]. setoid_replace (/ c * c)%Q with 1%Q by (field; lra).
      eapply Qle_trans; [apply Qmult_le_compat_nonneg; [split; [|apply Qle_refl]; vm_compute; discriminate|split; [apply Qlt_le_weak, Hp|exact H2]]|].
      vm_compute. discriminate. }
    assert (E : (pow2 (-150) == pow2 (-100) * (1 # 1125899906842624))%Q) by reflexivity. lra. }
  assert (Hx : (Qabs (x * i - t) <= Qabs t * (67108865 # 1125899906842624))%Q).
  { setoid_replace (x * i - t)%Q with (x * (i - / c))%Q by (unfold t; field; lra).
    rewrite Qabs_Qmult. unfold t, Qdiv. rewrite Qabs_Qmult.
    assert (Hi0 : (0 < / c)%Q) by now apply Qinv_lt_0_compat. rewrite (Qabs_pos (/ c)) by lra.
    rewrite <- Qmult_assoc. apply Qmult_le_compat_nonneg; split; [apply Qabs_nonneg|apply Qle_refl|apply Qabs_nonneg|exact Hi]. }
  assert (Ax : (Qabs (x * i) <= Qabs t + Qabs (x * i - t))%Q).
  { setoid_replace (x * i)%Q with (t + (x * i - t))%Q at 1 by ring. apply Qabs_triangle. }
  assert (H150 : (pow2 (-150) <= 1 # 1152921504606846976)%Q) by (vm_compute; discriminate).
  set (u := if fused then (x * i)%Q else f32 (x * i)).
  assert (Hu : (Qabs (u - t) <= Qabs t * (134217734 # 1125899906842624) + (1 # 1152921504606846976))%Q).
  { pose proof (Qabs_nonneg t). unfold u. destruct fused.
    - eapply Qle_trans; [exact Hx|]. lra.
    - pose proof (f32_err (x * i)) as He. change (pow2 (-24)) with (1 # 16777216) in He.
      setoid_replace (f32 (x * i) - t)%Q with ((f32 (x * i) - x * i) + (x * i - t))%Q by ring.
      eapply Qle_trans; [apply Qabs_triangle|]. lra. }
  pose proof (f32_err l) as Hl. change (pow2 (-24)) with (1 # 16777216) in Hl. set (s := f32 l) in *.
  assert (Hw : (Qabs ((u - s) - (t - l)) <= Qabs (u - t) + Qabs (s - l))%Q).
  { setoid_replace (u - s - (t - l))%Q with ((u - t) + - (s - l))%Q by ring.
    eapply Qle_trans; [apply Qabs_triangle|]. rewrite Qabs_opp. apply Qle_refl. }
  assert (Hv : (Qabs (u - s) <= Qabs t + Qabs l + Qabs ((u - s) - (t - l)))%Q).
  { setoid_replace (u - s)%Q with ((t + - l) + (u - s - (t - l)))%Q at 1 by ring.
    eapply Qle_trans; [apply Qabs_triangle|]. apply Qplus_le_compat; [|apply Qle_refl].
    eapply Qle_trans; [apply Qabs_triangle|]. rewrite Qabs_opp. apply Qle_refl. }
  pose proof (f32_err (u - s)) as Hf. change (pow2 (-24)) with (1 # 16777216) in Hf.
  setoid_replace (f32 (u - s) - (t - l))%Q with ((f32 (u - s) - (u - s)) + ((u - s) - (t - l)))%Q by ring.
  eapply Qle_trans; [apply Qabs_triangle|]. pose proof (Qabs_nonneg t). pose proof (Qabs_nonneg l). lra.
Qed.

(** C72, positions. The computed position of a point differs from the real one,
    [(x - lo) / c], by at most 2^-22 times the distances of the point and of the
    corner from the origin, counted in cells (and 2^-40). *)
Lemma C72_position_proof : forall fused lo c x, (pow2 (-100) <= c)%Q -> (c <= pow2 100)%Q ->
  (Qabs (device_position32 fused lo c x - (x - lo) / c) <= (Qabs (x / c) + Qabs (lo / c)) / 4194304 + 1 / 1099511627776)%Q.
Proof. intros. apply position_err; auto. Qed.

(** C72, search cells. Two points whose coordinates differ by at most the cell
    size, reduced by a fraction of (m + 1) / 2^20 where all coordinates are within
    [m] cells of the origin, have the same or adjacent cells, so that a search
    through the adjacent cells finds the one from the other. *)
Lemma C72_adjacent_partial_proof : forall fused lo c x y n (m : Z), (pow2 (-100) <= c)%Q -> (c <= pow2 100)%Q ->
  (Qabs lo <= inject_Z m * c)%Q -> (Qabs x <= inject_Z m * c)%Q -> (Qabs y <= inject_Z m * c)%Q ->
  (Qabs (x - y) <= c * (1 - (inject_Z m + 1) / 1048576))%Q ->
  let cell z := Z.min (Z.max (Qfloor (device_position32 fused lo c z)) 0) (n - 1) in
  -1 <= cell x - cell y <= 1.
Proof.
  intros fused lo c x y n m H1 H2 Hlo Hx Hy Hd. assert (Hp : (0 < c)%Q) by (eapply Qlt_le_trans; [|exact H1]; reflexivity).
  assert (Hi : (0 < / c)%Q) by now apply Qinv_lt_0_compat.
  assert (A : forall z w, (Qabs z <= w * c)%Q -> (Qabs (z / c) <= w)%Q).
  { intros z w H. unfold Qdiv. rewrite Qabs_Qmult, (Qabs_pos (/ c)) by lra. apply Qle_shift_div_r; [exact Hp|exact H]. }
  apply A in Hlo. apply A in Hx. apply A in Hy.
  assert (Hd' : (Qabs ((x - y) / c) <= 1 - (inject_Z m + 1) / 1048576)%Q) by (apply A; rewrite Qmult_comm; exact Hd).
  pose proof (position_err fused lo c x H1 H2) as Ex. pose proof (position_err fused lo c y H1 H2) as Ey.
  assert (H : -1 <= Qfloor (device_position32 fused lo c x) - Qfloor (device_position32 fused lo c y) <= 1).
  { apply floor_close. set (px := device_position32 fused lo c x) in *. set (py := device_position32 fused lo c y) in *.
    apply abs_close in Ex, Ey. apply Qabs_Qle_condition in Hd'.
    assert (E : ((x - y) / c == (x - lo) / c - (y - lo) / c)%Q) by (field; lra). rewrite E in Hd'. clear E.
    assert (Em : ((inject_Z m + 1) / 1048576 == (inject_Z m + 1) * (1 # 1048576))%Q) by reflexivity. rewrite Em in Hd'. clear Em.
    set (qx := ((x - lo) / c)%Q) in *. set (qy := ((y - lo) / c)%Q) in *.
    set (ax := Qabs (x / c)) in *. set (ay := Qabs (y / c)) in *. set (al := Qabs (lo / c)) in *.
    apply Qabs_Qle_condition. clearbody px py qx qy ax ay al. lra. }
  cbv zeta. lia.
Qed.

(** * Counterexamples *)
(** Four points about ten million from the origin, cells of size 165/128. *)
Definition ex72_rows : list point := [[10813436#1;0#1];[10813440#1;0#1];[10813441#1;0#1];[10813450#1;2#1]].
Definition ex72_ids : list nat := [0;0;0;0]%nat.
Definition ex72_cloud : pc := seg 2 ex72_rows ex72_ids 1.
Lemma ex72_is : cloud GPU 0 2 ex72_rows ex72_ids 1 ex72_cloud.
Proof. apply seg_cloud; repeat constructor. Qed.
Lemma ex72_batch : float32_batch 2 ex72_rows ex72_ids.
Proof.
  intros i d Hi Hd. cbn [length ex72_ids] in Hi.
  do 4 (destruct i as [|i]; [destruct d as [|[|d]]; [vm_compute; reflexivity..|lia]|]). lia.
Qed.
Lemma ex72_sizes : valid_sizes 2 (map f32 [165#128]).
Proof. split; [reflexivity|repeat constructor]. Qed.
Lemma ex72_grid fused g : is_device_grid fused 2 ex72_rows ex72_ids 1 (bcast 2 (map f32 [165#128])) g ->
  gnc g = [11; 2] /\ gkeys g = if fused then [0; 4; 6; 21] else [0; 4; 8; 21].
Proof.
  intros G. assert (Hn : gnc g = [11; 2]).
  { rewrite (dg_nc _ _ _ _ _ _ _ G). unfold num_cells32. rewrite (dg_min _ _ _ _ _ _ _ G), (dg_max _ _ _ _ _ _ _ G). vm_compute. reflexivity. }
  split; [exact Hn|]. rewrite (dg_keys _ _ _ _ _ _ _ G), Hn. destruct fused; vm_compute; reflexivity.
Qed.

(** C72, agreement refuted. The grids that the fallback and the CUDA operation
    make of the same float32 cloud differ, although no point is in the cell beyond
    the last one, on every device and with either way of rounding. *)
Lemma C72_agree_refuted_proof :
  exists rows ids p cs g,
    cloud GPU 0 2 rows ids 1 p /\ float32_batch 2 rows ids /\ valid_sizes 2 (map f32 cs) /\ mk_grid32 GPU p cs = Ok g /\
    (forall lo i d, (i < length ids)%nat -> (d < 2)%nat -> lower_corner32 2 rows ids (nth i ids 0%nat) lo ->
       Qfloor (position32 (nth d lo 0%Q) (nth d (gcells g) 0%Q) (xc rows i d)) < nth d (gnc g) 0) /\
    forall fused active warp, active <> 0%nat -> warp <> 0%nat ->
      mk_grid_gpu32 fused active warp p cs (fun g' => gnc g' = gnc g /\ gcells g' = gcells g /\ gkeys g' <> gkeys g).
Proof.
  destruct (mk_grid32 GPU ex72_cloud [165#128]) as [g|] eqn:Eg; [|vm_compute in Eg; discriminate].
  exists ex72_rows, ex72_ids, ex72_cloud, [165#128], g.
  split; [exact ex72_is|]. split; [exact ex72_batch|]. split; [exact ex72_sizes|]. split; [exact Eg|].
  assert (Ev : gnc g = [11; 2] /\ gkeys g = [0; 6; 6; 21] /\ gcells g = [165#128; 165#128]).
  { clear - Eg. vm_compute in Eg. injection Eg as <-. auto. }
  destruct Ev as (En & Ek & Ec). split.
  - intros lo i d Hi Hd Hlo. rewrite En, Ec.
    assert (E0 : nth i ex72_ids 0%nat = 0%nat) by (cbn [length ex72_ids] in Hi; do 4 (destruct i as [|i]; [reflexivity|]); lia).
    rewrite E0 in Hlo. rewrite (position32_comp _ (nth d (lo32 2 ex72_rows ex72_ids 0) 0%Q)).
    2:{ apply (corner32_unique 2 ex72_rows ex72_ids 0); [exact Hd|exact Hlo|]. apply lo32_corner; [reflexivity|]. cbn. now left. }
    clear - Hi Hd. cbn [length ex72_ids] in Hi.
    do 4 (destruct i as [|i]; [destruct d as [|[|d]]; [vm_compute; reflexivity..|lia]|]). lia.
  - intros fused active warp Ha Hw.
    apply (mk_grid_gpu32_ok fused active warp 0 2 ex72_rows ex72_ids 1); auto; [unfold supported; lia|discriminate|apply cloud_is, ex72_is|exact ex72_sizes|].
    intros g' G. destruct (ex72_grid fused g' G) as (E1 & E2). split; [congruence|]. split.
    + rewrite (dg_cells _ _ _ _ _ _ _ G), Ec. reflexivity.
    + rewrite E2, Ek. destruct fused; discriminate.
Qed.

(** C72, search cells refuted without the reduction of the radius: with two
    roundings, points whose distance is less than 4/5 of the cell size lie two
    cells apart. *)
Lemma C72_missed_refuted_proof :
  exists rows ids p c,
    cloud GPU 0 2 rows ids 1 p /\ float32_batch 2 rows ids /\ is_float32 c /\ valid_sizes 2 [c] /\
    (1 < length ids)%nat /\ (2 < length ids)%nat /\
    (let x := xc rows 1 0 - xc rows 2 0 in let y := xc rows 1 1 - xc rows 2 1 in
     let r := (4 # 5) * c in x * x + y * y < r * r)%Q /\
    forall active warp, active <> 0%nat -> warp <> 0%nat ->
      mk_grid_gpu32 false active warp p [c] (fun g =>
        nth 2 (gkeys g) 0 / nth 1 (gnc g) 0 - nth 1 (gkeys g) 0 / nth 1 (gnc g) 0 = 2).
Proof.
  exists ex72_rows, ex72_ids, ex72_cloud, (165#128).
  split; [exact ex72_is|]. split; [exact ex72_batch|]. split; [reflexivity|]. split; [exact ex72_sizes|].
  split; [cbn; lia|]. split; [cbn; lia|]. split; [vm_compute; reflexivity|].
  intros active warp Ha Hw.
  apply (mk_grid_gpu32_ok false active warp 0 2 ex72_rows ex72_ids 1); auto; [unfold supported; lia|discriminate|apply cloud_is, ex72_is|exact ex72_sizes|].
  intros g' G. destruct (ex72_grid false g' G) as (E1 & E2). rewrite E1, E2. reflexivity.
Qed.

(** The cloud of the counterexamples and its keys. *)
Example C72_keys_ex_proof :
  cloud GPU 0 2 ex72_rows ex72_ids 1 ex72_cloud /\ valid_sizes 2 (map f32 [165#128]) /\
  forall fused active warp, active <> 0%nat -> warp <> 0%nat ->
    mk_grid_gpu32 fused active warp ex72_cloud [165#128] (fun g => gnc g = [11; 2] /\ gkeys g = if fused then [0; 4; 6; 21] else [0; 4; 8; 21]).
Proof.
  split; [exact ex72_is|]. split; [exact ex72_sizes|]. intros fused active warp Ha Hw.
  apply (mk_grid_gpu32_ok fused active warp 0 2 ex72_rows ex72_ids 1); auto; [unfold supported; lia|discriminate|apply cloud_is, ex72_is|exact ex72_sizes|].
  intros g' G. exact (ex72_grid fused g' G).
Qed.
(** The position of the second point, about 3.1, is computed as 2.5. *)
Example C72_position_ex_proof :
  (pow2 (-100) <= 165#128 /\ 165#128 <= pow2 100)%Q /\
  (device_position32 false (10813436#1) (165#128) (10813440#1) == 5#2)%Q /\
  ((10813440#1) - (10813436#1)) / (165#128) == 512#165.
Proof. repeat split; vm_compute; congruence. Qed.
(** Cells of size 1/10 and coordinates up to 100 cells from the origin. *)
Example C72_adjacent_partial_ex_proof :
  let c := f32 (1 # 10) in
  (pow2 (-100) <= c)%Q /\ (c <= pow2 100)%Q /\
  (Qabs (f32 (92 # 10)) <= inject_Z 100 * c)%Q /\ (Qabs (f32 (95 # 10)) <= inject_Z 100 * c)%Q /\ (Qabs (f32 (959 # 100)) <= inject_Z 100 * c)%Q /\
  (Qabs (f32 (95 # 10) - f32 (959 # 100)) <= c * (1 - (inject_Z 100 + 1) / 1048576))%Q /\
  Qfloor (device_position32 false (f32 (92 # 10)) c (f32 (95 # 10))) = 3 /\
  Qfloor (device_position32 true (f32 (92 # 10)) c (f32 (959 # 100))) = 3.
Proof. repeat split; vm_compute; congruence. Qed.
