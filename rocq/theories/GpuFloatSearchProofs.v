(** Proofs about the CUDA search in float32 (C73). The statements are copied
    into PropertiesGpuFloatSearch.v. *)
From Coq Require Import List Arith ZArith NArith QArith Qround Qabs Lia Lqa Bool Permutation Sorted.
From Verif Require Import Tensor TensorFacts Spec PointCloud SpecCloud History PointCloudFacts QFacts CloudProofs
  Grid SpecGrid GridFacts GridProofs Neighbors SpecNeighbors NeighborFacts NeighborProofs NeighborhoodFacts
  Cuda CudaFacts AddFacts GpuGrid GpuGridFacts GpuGridProofs GpuScan SpecGpu GpuNeighbors GpuCountFacts SlotFacts GpuStoreFacts
  GpuNeighborFacts GpuOpFacts GpuRangeFacts GpuGeometry GpuSearchFacts GpuNeighborProofs
  Float FloatFacts FloatGrid SpecFloat FloatGridFacts FloatProofs GpuFloat SpecGpuFloat GpuFloatProofs GpuFloatSearch GpuNearFacts.
Import ListNotations.
Local Open Scope Z_scope.

(** * The search on the grid *)
Section Search.
  Context (fused : bool) (D : nat) (rows : list point) (ids : list nat) (B : nat) (cells : point) (g : grid).
  Hypothesis G : is_device_grid fused D rows ids B cells g.
  Hypothesis HD : supported D.
  Hypothesis Hne : ids <> [].
  Let nc := gnc g.
  Let n := length ids.

  Lemma sd_rows : length rows = n.
  Proof. destruct (dg_cloud _ _ _ _ _ _ _ G) as (e & C). apply (ic_len _ _ _ _ _ _ _ C). Qed.
  Lemma sd_ids i : (i < n)%nat -> (nth i ids 0 < B)%nat.
  Proof. intros H. destruct (dg_cloud _ _ _ _ _ _ _ G) as (e & C). pose proof (ic_ids _ _ _ _ _ _ _ C) as F. rewrite Forall_forall in F. apply F, nth_In, H. Qed.
  Lemma sd_nc_len : length nc = D.
  Proof. unfold nc. rewrite (dg_nc _ _ _ _ _ _ _ G). apply num_cells32_length. Qed.
  Lemma sd_nc_pos d : (d < D)%nat -> 1 <= nth d nc 0.
  Proof. intros H. unfold nc. rewrite (dg_nc _ _ _ _ _ _ _ G). now apply num_cells32_pos. Qed.
  Lemma sd_nc_all x : In x nc -> 1 <= x.
  Proof. intros Hx. apply (In_nth _ _ 0) in Hx as (d & Hd & <-). apply sd_nc_pos. now rewrite <- sd_nc_len. Qed.
  Definition sd_cells (i : nat) : list Z := map (dcell fused D rows ids cells nc i) (seq 0 D).
  Lemma sd_cells_in i : in_cells nc (sd_cells i).
  Proof. unfold sd_cells. rewrite <- sd_nc_len. apply in_cells_seq. intros d Hd. pose proof (sd_nc_pos d ltac:(now rewrite <- sd_nc_len)). unfold dcell. lia. Qed.
  Lemma sd_prod : 1 <= zprod nc.
  Proof. apply zprod_pos, sd_nc_all. Qed.
  Lemma sd_key i : (i < n)%nat -> nth i (gkeys g) 0 = Z.of_nat (nth i ids 0%nat) * zprod nc + radix nc (sd_cells i).
  Proof. intros Hi. rewrite (dg_keys _ _ _ _ _ _ _ G). now rewrite QFacts.nth_map_seq by exact Hi. Qed.
  Lemma sd_keys_len : length (gkeys g) = n.
  Proof. rewrite (dg_keys _ _ _ _ _ _ _ G). now rewrite map_length, seq_length. Qed.
  Lemma sd_perm : Permutation (gsidx g) (seq 0 n).
  Proof. rewrite (dg_sidx _ _ _ _ _ _ _ G). unfold argsort_desc. rewrite <- sd_keys_len. apply argsort_perm. Qed.
  Lemma sd_sidx_len : length (gsidx g) = n.
  Proof. rewrite (Permutation_length sd_perm). apply seq_length. Qed.
  Lemma sd_sidx_lt j : (j < n)%nat -> (nth j (gsidx g) 0 < n)%nat.
  Proof.
    intros H. assert (Hin : In (nth j (gsidx g) 0%nat) (gsidx g)) by (apply nth_In; rewrite sd_sidx_len; exact H).
    apply (Permutation_in _ sd_perm) in Hin. apply in_seq in Hin. lia.
  Qed.
  Lemma sd_map_sidx {A} (f : nat -> A) (e : A) j : (j < n)%nat -> nth j (map f (gsidx g)) e = f (nth j (gsidx g) 0%nat).
  Proof. intros H. rewrite (nth_indep _ e (f 0%nat)) by (rewrite map_length, sd_sidx_len; exact H). now rewrite map_nth. Qed.
  Lemma sd_skeys_len : length (gskeys g) = n.
  Proof. rewrite (dg_skeys _ _ _ _ _ _ _ G), map_length. apply sd_sidx_len. Qed.
  Lemma sd_spts_len : length (gspts g) = n.
  Proof. rewrite (dg_spts _ _ _ _ _ _ _ G), map_length. apply sd_sidx_len. Qed.
  Lemma sd_sbids_len : length (gsbids g) = n.
  Proof. rewrite (dg_sbids _ _ _ _ _ _ _ G), map_length. apply sd_sidx_len. Qed.
  Lemma sd_skey j : (j < n)%nat -> nth j (gskeys g) 0 = nth (nth j (gsidx g) 0%nat) (gkeys g) 0.
  Proof. intros H. rewrite (dg_skeys _ _ _ _ _ _ _ G). now rewrite sd_map_sidx. Qed.
  Lemma sd_spt j : (j < n)%nat -> nth j (gspts g) [] = nth (nth j (gsidx g) 0%nat) rows [].
  Proof. intros H. rewrite (dg_spts _ _ _ _ _ _ _ G). now rewrite sd_map_sidx. Qed.
  Lemma sd_sbid j : (j < n)%nat -> nth j (gsbids g) 0%nat = nth (nth j (gsidx g) 0%nat) ids 0%nat.
  Proof. intros H. rewrite (dg_sbids _ _ _ _ _ _ _ G). now rewrite sd_map_sidx. Qed.
  Lemma sd_sorted j k : (j < k)%nat -> (k < length (gskeys g))%nat -> nth k (gskeys g) 0 <= nth j (gskeys g) 0.
  Proof.
    rewrite sd_skeys_len. intros Hjk Hk. rewrite !sd_skey by lia. rewrite (dg_sidx _ _ _ _ _ _ _ G).
    pose proof (argsort_sorted (fun a b => b <=? a) 0 desc_total desc_trans (gkeys g)) as HS.
    assert (Hk' : (k < length (argsort_desc (gkeys g)))%nat) by (unfold argsort_desc; rewrite argsort_length, sd_keys_len; exact Hk).
    pose proof (StronglySorted_nth _ _ j k 0%nat HS Hjk Hk') as [H1 H2].
    fold (argsort_desc (gkeys g)) in *. now apply Z.leb_le in H1.
  Qed.
  Lemma sd_range j : (j < length (gskeys g))%nat -> 0 <= nth j (gskeys g) 0 < Z.of_nat B * zprod nc.
  Proof.
    rewrite sd_skeys_len. intros Hj. rewrite (sd_skey j Hj). pose proof (sd_sidx_lt j Hj) as Hi. rewrite (sd_key _ Hi).
    pose proof (radix_range _ _ (sd_cells_in (nth j (gsidx g) 0%nat))). pose proof (sd_ids _ Hi). pose proof sd_prod. nia.
  Qed.
  Definition sd_pcells (j : nat) : list Z := sd_cells (nth j (gsidx g) 0%nat).
  Lemma sd_pkeys j : (j < length (gskeys g))%nat -> nth j (gskeys g) 0 = Z.of_nat (nth j (gsbids g) 0%nat) * zprod nc + radix nc (sd_pcells j) /\
    in_cells nc (sd_pcells j) /\ 0 <= Z.of_nat (nth j (gsbids g) 0%nat).
  Proof.
    rewrite sd_skeys_len. intros Hj. rewrite (sd_skey j Hj), (sd_sbid j Hj). split; [apply sd_key, sd_sidx_lt, Hj|]. split; [apply sd_cells_in|lia].
  Qed.

  Lemma sd_B : (0 < B)%nat.
  Proof. assert (n <> 0%nat) by (intros E; apply Hne, length_zero_iff_nil, E). pose proof (sd_ids 0%nat ltac:(lia)). lia. Qed.
  Hypothesis Lcells : length cells = D.
  Context (crows : list point) (cids : list nat).
  Hypothesis HL : length crows = length cids.
  Hypothesis Hcne : cids <> [].
  Hypothesis Hcids : Forall (fun b => (b < B)%nat) cids.
  Let N := length cids.
  Definition sd_scell (s d : nat) : Z :=
    Z.min (Z.max (Qfloor (device_position32 fused (coord (lo32 D rows ids (nth s cids 0%nat)) d) (coord cells d) (coord (nth s crows []) d))) 0) (nth d nc 0 - 1).
  Definition sd_scells (s : nat) : list Z := map (sd_scell s) (seq 0 D).
  Definition sd_keys : list Z := map (fun s => Z.of_nat (nth s cids 0%nat) * zprod nc + radix nc (sd_scells s)) (seq 0 N).
  Lemma sd_scells_in s : in_cells nc (sd_scells s).
  Proof. unfold sd_scells. rewrite <- sd_nc_len. apply in_cells_seq. intros d Hd. pose proof (sd_nc_pos d ltac:(now rewrite <- sd_nc_len)). unfold sd_scell. lia. Qed.
  Lemma sd_cid s : (s < N)%nat -> (nth s cids 0 < B)%nat.
  Proof. intros Hs. pose proof Hcids as F. rewrite Forall_forall in F. apply F, nth_In, Hs. Qed.

  Lemma sample_keys32 active warp (P : list Z -> Prop) : active <> 0%nat -> warp <> 0%nat -> P sd_keys ->
    compute_keys_op32 fused active warp D crows cids (map (fun lo => map (fun d => f32 (coord lo d / coord (gcells g) d)) (seq 0 D)) (amin (gbox g)))
      nc (map (fun c => f32 (/ c)) (gcells g)) P.
  Proof.
    intros Ha Hw HP. rewrite (dg_cells _ _ _ _ _ _ _ G), (dg_min _ _ _ _ _ _ _ G). unfold compute_keys_op32.
    assert (Hn : N <> 0%nat) by (intros E; apply Hcne, length_zero_iff_nil, E). pose proof sd_nc_len as Lnc.
    split; [auto|]. split; [auto|]. split; [|split; [auto|split; [now rewrite map_length|]]].
    { rewrite Forall_forall. intros x Hx. apply in_map_iff in Hx. destruct Hx as (lo & <- & _). now rewrite map_length, seq_length. }
    intros out Lo. cbv zeta. split; [apply num_blocks_pos; lia|].
    eapply every_run_weaken; [|eapply (write_body_runs _ (fun s => Z.of_nat (nth s cids 0%nat) * zprod nc + radix nc (sd_scells s)))].
    - intros m ->. rewrite HL. exact HP.
    - apply num_blocks_pos; lia.
    - lia.
    - auto.
    - intros i Hi. eexists. split; [reflexivity|]. intros m. cbv beta. unfold rd. assert (Hi' : (i < length cids)%nat) by lia.
      pose proof (sd_cid i ltac:(unfold N; lia)) as Hb.
      rewrite (nth_error_nth' cids i 0%nat) by lia. cbn [obind]. rewrite (nth_error_nth' crows i []) by lia. cbn [obind].
      rewrite map_map, nth_error_map. rewrite (nth_error_nth' (seq 0 B) (nth i cids 0%nat) 0%nat) by (rewrite seq_length; auto).
      rewrite seq_nth by auto. cbn [option_map obind Nat.add]. f_equal.
      rewrite gpu_key_radix by (unfold gpu_cell32; rewrite map_length, seq_length; auto).
      do 2 f_equal. unfold gpu_cell32, sd_scells. apply map_ext_in. intros d Hd. apply in_seq in Hd. unfold sd_scell. do 3 f_equal.
      rewrite <- device_position_is. f_equal.
      + unfold coord. rewrite (nth_indep (map _ cells) 0%Q (f32 (/ 0))%Q) by (rewrite map_length; lia). now rewrite (map_nth (fun c => f32 (/ c))%Q).
      + unfold coord at 1. rewrite nth_map_seq by lia. reflexivity.
  Qed.

  Context (near : point -> point -> bool).
  Hypothesis Hlast : (D <= 3)%nat \/ 3 <= nth (D - 1) nc 0.
  Let F s := found_all D crows (gspts g) (gskeys g) nc (ds_of_keys B nc (gskeys g)) near sd_keys s (offsets D).
  Lemma sd_skeys s : (s < length crows)%nat -> nth s sd_keys 0 = Z.of_nat (nth s cids 0%nat) * zprod nc + radix nc (sd_scells s).
  Proof. intros Hs. unfold sd_keys. rewrite QFacts.nth_map_seq by (unfold N; lia). reflexivity. Qed.

  Lemma search_found s : (s < N)%nat ->
    NoDup (F s) /\
    (forall j, In j (F s) -> (j < n)%nat /\ nth j (gsbids g) 0%nat = nth s cids 0%nat /\ near (nth s crows []) (nth j (gspts g) []) = true /\
       Z.abs (nth 0 (sd_pcells j) 0 - nth 0 (sd_scells s) 0) <= 1 /\ Z.abs (nth 1 (sd_pcells j) 0 - nth 1 (sd_scells s) 0) <= 1) /\
    (forall j, (j < n)%nat -> nth j (gsbids g) 0%nat = nth s cids 0%nat -> near (nth s crows []) (nth j (gspts g) []) = true ->
       (forall d, (d < D)%nat -> Z.abs (nth d (sd_pcells j) 0 - nth d (sd_scells s) 0) <= 1) -> In j (F s)).
  Proof.
    intros Hs. pose proof sd_skeys_len as Lk.
    destruct (keys_found D B nc (gskeys g) (gspts g) (gsbids g) sd_pcells crows cids sd_keys sd_scells) with (near := near) (s := s) as (ND & F1 & F2).
    - exact HD.
    - apply sd_nc_len.
    - apply sd_nc_all.
    - rewrite Lk. apply sd_spts_len.
    - apply sd_pkeys.
    - apply sd_range.
    - apply sd_sorted.
    - apply sd_skeys.
    - intros; apply sd_scells_in.
    - intros s' Hs'. apply sd_cid. unfold N. lia.
    - exact Hlast.
    - unfold N in Hs. lia.
    - rewrite Lk in F1, F2. split; [exact ND|]. split; [exact F1|exact F2].
  Qed.

  Lemma search_runs active warp time (P : list Z -> list (nat * nat) -> Prop) :
    (forall x, active x <> 0%nat) -> warp <> 0%nat -> (exists q, 2 ^ 8 * 2 = q * (2 * warp))%nat ->
    (length cids <= 2 ^ 8 * 2 + active KScan * (2 * warp))%nat ->
    (forall ends nbs, delimits ends nbs (length cids) -> NoDup nbs ->
       (forall j i, In (j, i) nbs <-> (i < N)%nat /\ In j (F i)) -> P ends nbs) ->
    search_op active warp D time near crows (gspts g) (gskeys g) nc (ds_of_keys B nc (gskeys g)) sd_keys 0 P.
  Proof.
    intros Ha Hw Hq Hlen HP. apply search_op_ok; auto.
    - now rewrite HL.
    - intros E. apply Hcne, length_zero_iff_nil. rewrite <- HL, E. reflexivity.
    - unfold sd_keys. rewrite map_length, seq_length. unfold N. lia.
    - apply (keys_good D B nc (gskeys g) (gspts g) (gsbids g) sd_pcells crows cids sd_keys sd_scells).
      + exact HD.
      + apply sd_nc_len.
      + apply sd_nc_all.
      + rewrite sd_skeys_len. apply sd_spts_len.
      + apply sd_pkeys.
      + apply sd_range.
      + apply sd_sorted.
      + apply sd_skeys.
      + intros; apply sd_scells_in.
      + intros s' Hs'. apply sd_cid. unfold N. lia.
    - intros A HA. rewrite HL in HA |- *. fold N in HA |- *. set (bl := map A (seq 0 N)).
      assert (Lb : length bl = N) by (unfold bl; now rewrite map_length, seq_length). apply HP.
      + fold N. rewrite <- Lb. apply delimits_tagged.
      + apply tagged_NoDup. apply Forall_forall. intros l Hl. unfold bl in Hl. apply in_map_iff in Hl. destruct Hl as (s & <- & Hs). apply in_seq in Hs.
        eapply Permutation_NoDup; [symmetry; apply HA; clear - Hs; lia|]. apply search_found. clear - Hs. lia.
      + intros j i. rewrite tagged_In, Nat.sub_0_r, Lb. split.
        * intros (Hi & Hj). unfold bl in Hj. rewrite QFacts.nth_map_seq in Hj by lia. split; [lia|]. apply (Permutation_in _ (HA i ltac:(lia))) in Hj. exact Hj.
        * intros (Hi & Hj). split; [lia|]. unfold bl. rewrite QFacts.nth_map_seq by lia. apply (Permutation_in _ (Permutation_sym (HA i ltac:(lia)))). exact Hj.
  Qed.
End Search.

Lemma find_neighbors_gpu32_ok fused (active : kernel -> nat) warp time D rows ids B cells g ceps crows cids CB cp radii (P : list Z -> list (nat * nat) -> Prop) :
  (forall x, active x <> 0%nat) -> warp <> 0%nat -> (exists q, 2 ^ 8 * 2 = q * (2 * warp))%nat ->
  supported D -> ids <> [] -> is_device_grid fused D rows ids B cells g -> length cells = D ->
  is_cloud GPU ceps D crows cids CB cp -> cids <> [] -> Forall (fun b => (b < B)%nat) cids ->
  length (bcast D (map f32 radii)) = D -> (length cids <= 2 ^ 8 * 2 + active KScan * (2 * warp))%nat ->
  (D <= 3)%nat \/ 3 <= nth (D - 1) (gnc g) 0 ->
  let near := near32 fused D (map (fun r => f32 (/ r)) (bcast D (map f32 radii))) in
  let adj j i d := Z.abs (nth d (sd_pcells fused D rows ids cells g j) 0 - nth d (sd_scells fused D rows ids cells g crows cids i) 0) <= 1 in
  (forall ends nbs, delimits ends nbs (length cids) -> NoDup nbs ->
     (forall j i, In (j, i) nbs -> (i < length cids)%nat /\ (j < length ids)%nat /\ nth j (gsbids g) 0%nat = nth i cids 0%nat /\
        near (nth i crows []) (nth j (gspts g) []) = true /\ adj j i 0%nat /\ adj j i 1%nat) ->
     (forall j i, (i < length cids)%nat -> (j < length ids)%nat -> nth j (gsbids g) 0%nat = nth i cids 0%nat ->
        near (nth i crows []) (nth j (gspts g) []) = true -> (forall d, (d < D)%nat -> adj j i d) -> In (j, i) nbs) -> P ends nbs) ->
  find_neighbors_gpu32 fused active warp time g cp radii 0 P.
Proof.
  intros Ha Hw Hq HD Hne G Lc Hc Hcne Hcids Lr Hlen Hlast near adj HP. unfold find_neighbors_gpu32.
  destruct (dg_cloud _ _ _ _ _ _ _ G) as (eps & Cg).
  rewrite (ic_dim _ _ _ _ _ _ _ Cg), (ic_dim _ _ _ _ _ _ _ Hc), (ic_pts _ _ _ _ _ _ _ Hc), (ic_bids _ _ _ _ _ _ _ Hc). cbv zeta.
  pose proof (ic_len _ _ _ _ _ _ _ Hc) as LC.
  unfold get_DS_gpu. rewrite (dg_ds _ _ _ _ _ _ _ G), (ic_bsize _ _ _ _ _ _ _ Cg). apply build_grid_ds_runs; auto.
  - rewrite (sd_nc_len fused D rows ids B cells g G). exact HD.
  - exact (sd_B fused D rows ids B cells g G Hne).
  - intros E. pose proof (sd_skeys_len fused D rows ids B cells g G) as L. rewrite E in L. destruct ids; [congruence|discriminate].
  - exact (sd_nc_all fused D rows ids B cells g G).
  - exact (sd_range fused D rows ids B cells g G).
  - exact (sd_sorted fused D rows ids B cells g G).
  - cbn [dsranges]. unfold find_neighbors_op32. split; [auto|]. split; [exact (sd_nc_len fused D rows ids B cells g G)|].
    split. { apply Forall_forall. intros r Hr. apply In_nth with (d := []) in Hr. destruct Hr as (j & Hj & <-).
      rewrite (sd_spts_len fused D rows ids B cells g G) in Hj. rewrite (sd_spt fused D rows ids B cells g G j Hj).
      pose proof (ic_rows _ _ _ _ _ _ _ Cg) as F. rewrite Forall_forall in F. apply F, nth_In.
      rewrite (sd_rows fused D rows ids B cells g G). exact (sd_sidx_lt fused D rows ids B cells g G j Hj). }
    split. { apply Forall_forall. intros r Hr. apply in_map_iff in Hr. destruct Hr as (lo & <- & _). now rewrite map_length, seq_length. }
    split; [rewrite map_length, (dg_cells _ _ _ _ _ _ _ G); exact Lc|]. split; [now rewrite map_length|]. split; [auto|].
    split; [rewrite (sd_skeys_len fused D rows ids B cells g G), (sd_spts_len fused D rows ids B cells g G); reflexivity|].
    apply (sample_keys32 fused D rows ids B cells g); auto.
    apply (search_runs fused D rows ids B cells g); auto.
    intros ends nbs D1 D2 D3. apply HP; auto.
    + intros j i Hj. apply D3 in Hj. destruct Hj as (Hi & Hj).
      destruct (search_found fused D rows ids B cells g G HD Lc crows cids LC Hcids near Hlast i Hi) as (_ & S1 & _). specialize (S1 j Hj). tauto.
    + intros j i Hi Hj Eb Hn Hadj. apply D3. split; [exact Hi|].
      destruct (search_found fused D rows ids B cells g G HD Lc crows cids LC Hcids near Hlast i Hi) as (_ & _ & S2). apply S2; auto.
Qed.

(** * The ellipsoids *)
Lemma ellipsoid_sum D (radii : list Q) (s : Q) (p c : point) : length radii = D -> (forall d, (d < D)%nat -> 0 < nth d radii 0)%Q -> (0 < s)%Q ->
  ((fold_right Qplus 0 (map (fun d => let x := (nth d p 0 - nth d c 0) / nth d (times_radii s radii) 1 in x * x) (seq 0 D))) * (s * s) ==
   fold_right Qplus 0 (map (fun d => (coord c d - coord p d) / nth d radii 0 * ((coord c d - coord p d) / nth d radii 0)) (seq 0 D)))%Q.
Proof.
  intros L Hp Hs. assert (H : forall l, (forall d, In d l -> (d < D)%nat) ->
    ((fold_right Qplus 0 (map (fun d => let x := (nth d p 0 - nth d c 0) / nth d (times_radii s radii) 1 in x * x) l)) * (s * s) ==
     fold_right Qplus 0 (map (fun d => (coord c d - coord p d) / nth d radii 0 * ((coord c d - coord p d) / nth d radii 0)) l))%Q).
  { induction l as [|d l IH]; intros Hl; cbn [map fold_right]; [ring|]. rewrite Qmult_plus_distr_l, IH by (intros; apply Hl; now right).
    apply Qplus_inj_r. specialize (Hp d (Hl d (or_introl eq_refl))). cbv zeta. unfold coord.
    assert (E : nth d (times_radii s radii) 1%Q = (s * nth d radii 0)%Q).
    { unfold times_radii. rewrite (nth_indep _ 1%Q (s * 0)%Q) by (rewrite map_length, L; apply Hl; now left). now rewrite (map_nth (fun r => s * r)%Q). }
    rewrite E. field. split; lra. }
  apply H. intros d Hd. apply in_seq in Hd. lia.
Qed.

(** What the search gives on a grid of the device, for radii up to the cell
    sizes and coordinates within [m] cells of the origin. *)
Section Sandwich.
  Context (fused : bool) (D : nat) (rows : list point) (ids : list nat) (B : nat) (cells : point) (g : grid) (crows : list point) (cids : list nat) (radii : list Q) (m : Z).
  Hypothesis HD : (2 <= D <= 6)%nat.
  Hypothesis G : is_device_grid fused D rows ids B cells g.
  Hypothesis Lr : length radii = D.
  Hypothesis Pr : forall d, (d < D)%nat -> (0 < nth d radii 0)%Q.
  Hypothesis Hb : forall d, (d < D)%nat -> (pow2 (-100) <= nth d radii 0 /\ nth d radii 0 <= nth d cells 0 /\ nth d cells 0 <= pow2 100)%Q.
  Hypothesis Hm0 : 0 <= m.
  Hypothesis Hm : m + 4 < 2 ^ 20.
  Hypothesis Hfar : forall d, (d < D)%nat ->
       (forall i, (i < length ids)%nat -> Qabs (xc rows i d) <= inject_Z m * nth d cells 0)%Q /\
       (forall i, (i < length cids)%nat -> Qabs (xc crows i d) <= inject_Z m * nth d cells 0)%Q /\
       (forall b lo, In b ids -> lower_corner32 D rows ids b lo -> Qabs (nth d lo 0) <= inject_Z m * nth d cells 0)%Q.
  Let s := (1 - (inject_Z m + 4) / 1048576)%Q.
  Let T j i := fold_right Qplus 0%Q (map (fun d => (coord (nth i crows []) d - coord (nth j (gspts g) []) d) / nth d radii 0 * ((coord (nth i crows []) d - coord (nth j (gspts g) []) d) / nth d radii 0))%Q (seq 0 D)).

  Lemma shrunk_pos : (0 < s /\ s <= 1 - 4 * (1 # 1048576))%Q.
  Proof using Hm0 Hm.
    clear - Hm0 Hm. assert (Bm : (0 <= inject_Z m /\ inject_Z m + 4 <= 1048575)%Q).
    { split; [change 0%Q with (inject_Z 0); rewrite <- Zle_Qle; lia|]. change 4%Q with (inject_Z 4). change 1048575%Q with (inject_Z 1048575). rewrite <- inject_Z_plus, <- Zle_Qle. lia. }
    assert (Em : ((inject_Z m + 4) / 1048576 == (inject_Z m + 4) * (1 # 1048576))%Q) by reflexivity. unfold s. rewrite Em. lra.
  Qed.
  Lemma radii_range d : (d < D)%nat -> (pow2 (-100) <= nth d radii 0 /\ nth d radii 0 <= pow2 100)%Q.
  Proof. intros Hd. destruct (Hb d Hd) as (H1 & H2 & H3). split; [exact H1|]. eapply Qle_trans; eauto. Qed.
  Lemma small_total j i : inside_ellipsoid D (times_radii s radii) (gspts g) (gsbids g) crows cids j i -> (T j i < s * s)%Q.
  Proof.
    intros (_ & _ & _ & Hin). pose proof shrunk_pos as Ps. assert (E := ellipsoid_sum D radii s (nth j (gspts g) []) (nth i crows []) Lr Pr (proj1 Ps)). fold (T j i) in E.
    rewrite <- E. match type of Hin with (?x < 1)%Q => set (X := x) in * end. clearbody X. clear - Hin Ps. assert (0 < s * s)%Q by nra. nra.
  Qed.
  Lemma large_ellipsoid j i : (j < length ids)%nat -> (i < length cids)%nat -> nth j (gsbids g) 0%nat = nth i cids 0%nat ->
    near32 fused D (map (fun r => f32 (/ r)) radii) (nth i crows []) (nth j (gspts g) []) = true ->
    inside_ellipsoid D (times_radii (1 + 4 / 1048576) radii) (gspts g) (gsbids g) crows cids j i.
  Proof.
    intros Hj Hi Eb Hn. unfold inside_ellipsoid. rewrite (sd_sbids_len fused D rows ids B cells g G).
    split; [exact Hj|]. split; [exact Hi|]. split; [exact Eb|].
    apply (near_sound fused D radii _ _ ltac:(lia) radii_range Lr) in Hn.
    assert (E := ellipsoid_sum D radii (1 + 4 / 1048576) (nth j (gspts g) []) (nth i crows []) Lr Pr eq_refl).
    rewrite <- E in Hn. change (1 + 4 / 1048576)%Q with (1048580 # 1048576) in *.
    match goal with |- (?x < 1)%Q => set (X := x) in * end. clearbody X. clear - Hn. change (1048580 # 1048576) with (1048580 # 1048576) in *.
    set (k := ((1048580 # 1048576) * (1048580 # 1048576))%Q) in *. assert (K : (1 + (6 # 1048576) <= k)%Q) by (vm_compute; discriminate). clearbody k.
    destruct (Qlt_le_dec X 1) as [L|L]; [exact L|exfalso]. nra.
  Qed.
  Lemma small_near j i : inside_ellipsoid D (times_radii s radii) (gspts g) (gsbids g) crows cids j i ->
    near32 fused D (map (fun r => f32 (/ r)) radii) (nth i crows []) (nth j (gspts g) []) = true.
  Proof.
    intros H. apply small_total in H. pose proof shrunk_pos as Ps. apply (near_complete fused D radii _ _ ltac:(lia) radii_range Lr). fold (T j i).
    eapply Qle_trans; [apply Qlt_le_weak, H|]. clear - Ps. nra.
  Qed.
  Lemma small_adjacent j i d : inside_ellipsoid D (times_radii s radii) (gspts g) (gsbids g) crows cids j i -> (d < D)%nat ->
    Z.abs (nth d (sd_pcells fused D rows ids cells g j) 0 - nth d (sd_scells fused D rows ids cells g crows cids i) 0) <= 1.
  Proof.
    intros H Hd. pose proof (small_total j i H) as HT. destruct H as (Hj & Hi & Eb & _). rewrite (sd_sbids_len fused D rows ids B cells g G) in Hj. pose proof shrunk_pos as Ps.
    unfold sd_pcells, sd_cells, sd_scells. rewrite !QFacts.nth_map_seq by exact Hd. unfold dcell, sd_scell.
    assert (TT : ((coord (nth i crows []) d - coord (nth j (gspts g) []) d) / nth d radii 0 * ((coord (nth i crows []) d - coord (nth j (gspts g) []) d) / nth d radii 0) < s * s)%Q).
    { eapply Qle_lt_trans; [|exact HT]. exact (total_term D radii (nth i crows []) (nth j (gspts g) []) ltac:(lia) Lr d Hd). }
    rewrite (sd_spt fused D rows ids B cells g G j Hj) in TT. rewrite (sd_sbid fused D rows ids B cells g G j Hj) in Eb. rewrite <- Eb.
    pose proof (sd_sidx_lt fused D rows ids B cells g G j Hj) as Hx. set (x := nth j (gsidx g) 0%nat) in *.
    destruct (Hb d Hd) as (R1 & R2 & R3). destruct (Hfar d Hd) as (Q1 & Q2 & Q3).
    assert (A := C72_adjacent_partial_proof fused (coord (lo32 D rows ids (nth x ids 0%nat)) d) (nth d cells 0%Q) (xc rows x d) (xc crows i d) (nth d (gnc g) 0) m).
    cbv zeta in A. unfold xc in A. change (nth d cells 0%Q) with (coord cells d) in A at 2 3. apply Z.abs_le. apply A; clear A.
    * eapply Qle_trans; eauto.
    * exact R3.
    * apply (Q3 (nth x ids 0%nat)); [apply nth_In, Hx|]. apply lo32_corner; [exact (sd_rows fused D rows ids B cells g G)|apply nth_In, Hx].
    * apply (Q1 x Hx).
    * apply (Q2 i Hi).
    * change (nth d (nth x rows []) 0%Q) with (coord (nth x rows []) d). change (nth d (nth i crows []) 0%Q) with (coord (nth i crows []) d).
      set (u := (coord (nth i crows []) d - coord (nth x rows []) d)%Q) in *.
      setoid_replace (coord (nth x rows []) d - coord (nth i crows []) d)%Q with (- u)%Q by (unfold u; ring). rewrite Qabs_opp.
      specialize (Pr d Hd). set (r := nth d radii 0%Q) in *. set (cd := nth d cells 0%Q) in *. change (0 < r)%Q in Pr.
      assert (Eu : (u == u / r * r)%Q) by (field; lra). set (q := (u / r)%Q) in *.
      assert (Hq' : (- s < q /\ q < s)%Q) by (clear - TT Ps; split; nra).
      assert (Hs1 : (s <= 1 - (inject_Z m + 1) / 1048576)%Q).
      { assert (Em1 : ((inject_Z m + 1) / 1048576 == (inject_Z m + 1) * (1 # 1048576))%Q) by reflexivity.
        assert (Em : ((inject_Z m + 4) / 1048576 == (inject_Z m + 4) * (1 # 1048576))%Q) by reflexivity. unfold s. rewrite Em, Em1. lra. }
      set (w := (1 - (inject_Z m + 1) / 1048576)%Q) in *. clearbody w u q cd r s. rewrite Eu. apply abs_le. clear - Hq' Hs1 Ps Pr R2. split; nra.
  Qed.

  Lemma search_sandwich (active : kernel -> nat) warp time ceps CB cp rr (P : list Z -> list (nat * nat) -> Prop) :
    (forall x, active x <> 0%nat) -> warp <> 0%nat -> (exists q, 2 ^ 8 * 2 = q * (2 * warp))%nat ->
    ids <> [] -> length cells = D -> is_cloud GPU ceps D crows cids CB cp -> cids <> [] -> Forall (fun b => (b < B)%nat) cids ->
    bcast D (map f32 rr) = radii -> (length cids <= 2 ^ 8 * 2 + active KScan * (2 * warp))%nat ->
    (D <= 3)%nat \/ 3 <= nth (D - 1) (gnc g) 0 ->
    (forall ends nbs, delimits ends nbs (length cids) -> NoDup nbs ->
       (forall j i, In (j, i) nbs -> inside_ellipsoid D (times_radii (1 + 4 / 1048576) radii) (gspts g) (gsbids g) crows cids j i) ->
       (forall j i, inside_ellipsoid D (times_radii s radii) (gspts g) (gsbids g) crows cids j i -> In (j, i) nbs) -> P ends nbs) ->
    find_neighbors_gpu32 fused active warp time g cp rr 0 P.
  Proof.
    intros Ha Hw Hq Hne Lc Hcc Hcne Hcids Er Hlen Hlast HP.
    apply (find_neighbors_gpu32_ok fused active warp time D rows ids B cells g ceps crows cids CB); auto; [now rewrite Er|].
    rewrite Er. intros ends nbs D1 D2 D3 D4. apply HP; auto.
    - intros j i Hji. destruct (D3 j i Hji) as (Hi & Hj & Eb & Hn & _). now apply large_ellipsoid.
    - intros j i H. pose proof (small_near j i H) as Hn. pose proof (fun d => small_adjacent j i d H) as Ha'. destruct H as (Hj & Hi & Eb & _).
      rewrite (sd_sbids_len fused D rows ids B cells g G) in Hj. apply D4; auto.
  Qed.
End Sandwich.

(** C73, partial. The search in float32 as the CUDA operations do it, on the grid
    they build: for every cloud of dimension 2 to 6, all cell sizes, centers and
    radii up to the cell sizes, every device and schedule and either way of
    rounding: the operations complete, the ranges delimit the rows of every
    center, no row occurs twice, every row is a pair of a grid point and a
    center of the same element with the point inside the ellipsoid of the radii
    enlarged by 4 / 2^20, and every such pair inside the ellipsoid of the radii
    reduced by a fraction of (m + 4) / 2^20 is a row, where the coordinates of
    points, centers and corners are within [m] cells of the origin. Partial:
    besides the restrictions of C41, pairs inside the radius can be lost: the
    theorem below shows one with a distance of less than 4/5 of the radius. *)
Lemma C73_search_partial_proof :
  forall fused active warp eps D rows ids B cs p ceps crows cids CB cp radii time (m : Z),
    (forall x, active x <> 0%nat) -> warp <> 0%nat -> (exists q, 2 ^ 8 * 2 = q * (2 * warp))%nat ->
    (2 <= D <= 6)%nat -> ids <> [] -> cloud GPU eps D rows ids B p -> valid_sizes D (map f32 cs) ->
    cids <> [] -> cloud GPU ceps D crows cids CB cp -> Forall (fun b => (b < B)%nat) cids -> valid_sizes D (map f32 radii) ->
    let c d := nth d (all_dims D (map f32 cs)) 0%Q in
    let rs := all_dims D (map f32 radii) in
    (forall d, (d < D)%nat -> pow2 (-100) <= nth d rs 0 /\ nth d rs 0 <= c d /\ c d <= pow2 100)%Q ->
    0 <= m -> m + 4 < 2 ^ 20 ->
    (forall d, (d < D)%nat ->
       (forall i, (i < length ids)%nat -> Qabs (xc rows i d) <= inject_Z m * c d)%Q /\
       (forall i, (i < length cids)%nat -> Qabs (xc crows i d) <= inject_Z m * c d)%Q /\
       (forall b lo, In b ids -> lower_corner32 D rows ids b lo -> Qabs (nth d lo 0) <= inject_Z m * c d)%Q) ->
    (length cids <= 2 ^ 8 * 2 + active KScan * (2 * warp))%nat ->
    mk_grid_gpu32 fused (active KKeys) warp p cs (fun g =>
      (D <= 3)%nat \/ 3 <= nth (D - 1) (gnc g) 0 ->
      find_neighbors_gpu32 fused active warp time g cp radii 0 (fun ends nbs =>
        delimits ends nbs (length cids) /\ NoDup nbs /\
        (forall j i, In (j, i) nbs -> inside_ellipsoid D (times_radii (1 + 4 / 1048576) rs) (gspts g) (gsbids g) crows cids j i) /\
        (forall j i, inside_ellipsoid D (times_radii (1 - (inject_Z m + 4) / 1048576) rs) (gspts g) (gsbids g) crows cids j i -> In (j, i) nbs))).
Proof.
  intros fused active warp eps D rows ids B cs p ceps crows cids CB cp radii time m Ha Hw Hq HD Hne Hc Hv Hcne Hcc Hcids Hr c rs Hb Hm0 Hm Hfar Hlen.
  apply cloud_is in Hc, Hcc. pose proof (valid_sizes_pos D _ Hv) as [Lc Pc]. pose proof (valid_sizes_pos D _ Hr) as [Lr Pr].
  change (all_dims D (map f32 radii)) with (bcast D (map f32 radii)) in *. change (all_dims D (map f32 cs)) with (bcast D (map f32 cs)) in *.
  set (cells := bcast D (map f32 cs)) in *. fold rs in Lr, Pr.
  assert (Sup : supported D) by exact HD.
  apply (mk_grid_gpu32_ok fused (active KKeys) warp eps D rows ids B); auto. intros g G Hlast. fold cells in G.
  apply (search_sandwich fused D rows ids B cells g crows cids rs m) with (ceps := ceps) (CB := CB); auto.
Qed.

(** C73, refuted without the reduction of the radius. Four points that float32
    represents, cells and radius 165/128: with two roundings, on every device
    and for every schedule, the rows of the search lack a pair whose distance is
    less than 4/5 of the radius. *)
Lemma C73_missed_refuted_proof :
  exists rows ids p c,
    cloud GPU 0 2 rows ids 1 p /\ float32_batch 2 rows ids /\ is_float32 c /\ valid_sizes 2 [c] /\
    forall active warp time, (forall x, active x <> 0%nat) -> warp <> 0%nat -> (exists q, 2 ^ 8 * 2 = q * (2 * warp))%nat ->
      mk_grid_gpu32 false (active KKeys) warp p [c] (fun g =>
        find_neighbors_gpu32 false active warp time g p [c] 0 (fun ends nbs =>
          exists j i, inside_ellipsoid 2 (times_radii (4 / 5) (all_dims 2 [c])) (gspts g) (gsbids g) rows ids j i /\ ~ In (j, i) nbs)).
Proof.
  exists ex72_rows, ex72_ids, ex72_cloud, (165#128).
  split; [exact ex72_is|]. split; [exact ex72_batch|]. split; [reflexivity|]. split; [exact ex72_sizes|].
  intros active warp time Ha Hw Hq.
  assert (Sup : supported 2) by (unfold supported; lia).
  pose proof (cloud_is _ _ _ _ _ _ _ ex72_is) as C.
  apply (mk_grid_gpu32_ok false (active KKeys) warp 0 2 ex72_rows ex72_ids 1); auto; [discriminate|exact ex72_sizes|].
  intros g G. destruct (ex72_grid false g G) as (En & Ek).
  apply (find_neighbors_gpu32_ok false active warp time 2 ex72_rows ex72_ids 1 (bcast 2 (map f32 [165#128])) g 0 ex72_rows ex72_ids 1); auto.
  - discriminate.
  - discriminate.
  - repeat constructor.
  - cbn [length ex72_ids]. change (2 ^ 8 * 2)%nat with 512%nat. lia.
  - intros ends nbs _ _ D3 _.
    assert (Es : gsidx g = [3; 2; 1; 0]%nat) by (rewrite (dg_sidx _ _ _ _ _ _ _ G), Ek; vm_compute; reflexivity).
    exists 2%nat, 2%nat. split.
    + rewrite (dg_spts _ _ _ _ _ _ _ G), (dg_sbids _ _ _ _ _ _ _ G), Es. repeat split; vm_compute; reflexivity || lia.
    + intros Hj. destruct (D3 2%nat 2%nat Hj) as (_ & _ & _ & _ & A & _). unfold sd_pcells, sd_cells, sd_scells in A.
      rewrite !QFacts.nth_map_seq in A by lia. rewrite Es in A. unfold dcell, sd_scell in A. rewrite En in A. vm_compute in A. congruence.
Qed.

(** A cloud of three points that is searched with itself: radius and cells of
    size 1, coordinates within 3 cells of the origin. *)
Definition ex73_rows : list point := [[0#1;0#1];[1#2;1#4];[1#1;2#1]].
Definition ex73_ids : list nat := [0;0;0]%nat.
Definition ex73_cloud : pc := seg 2 ex73_rows ex73_ids 1.
Example C73_search_partial_ex_proof :
  cloud GPU 0 2 ex73_rows ex73_ids 1 ex73_cloud /\ valid_sizes 2 (map f32 [1#1]) /\
  let c d := nth d (all_dims 2 (map f32 [1#1])) 0%Q in
  (forall d, (d < 2)%nat -> pow2 (-100) <= c d /\ c d <= c d /\ c d <= pow2 100)%Q /\
  (forall d, (d < 2)%nat ->
     (forall i, (i < length ex73_ids)%nat -> Qabs (xc ex73_rows i d) <= inject_Z 3 * c d)%Q /\
     (forall b lo, In b ex73_ids -> lower_corner32 2 ex73_rows ex73_ids b lo -> Qabs (nth d lo 0) <= inject_Z 3 * c d)%Q) /\
  inside_ellipsoid 2 (times_radii (1 - (inject_Z 3 + 4) / 1048576) (all_dims 2 (map f32 [1#1]))) ex73_rows ex73_ids ex73_rows ex73_ids 0 1 /\
  ~ inside_ellipsoid 2 (times_radii (1 + 4 / 1048576) (all_dims 2 (map f32 [1#1]))) ex73_rows ex73_ids ex73_rows ex73_ids 0 2.
Proof.
  split; [apply seg_cloud; repeat constructor|]. split; [split; [reflexivity|repeat constructor]|]. cbv zeta. split; [|split; [|split]].
  - intros d Hd. destruct d as [|[|d]]; [..|lia]; (split; [|split]); vm_compute; discriminate.
  - intros d Hd. split.
    + intros i Hi. cbn [length ex73_ids] in Hi. destruct d as [|[|d]]; [..|lia]; (do 3 (destruct i as [|i]; [vm_compute; discriminate|])); lia.
    + intros b lo Hb Hlo. assert (b = 0%nat) by (cbn in Hb; intuition). subst b.
      rewrite (corner32_unique 2 ex73_rows ex73_ids 0 lo (lo32 2 ex73_rows ex73_ids 0) d Hd Hlo) by (apply lo32_corner; [reflexivity|cbn; now left]).
      destruct d as [|[|d]]; [..|lia]; vm_compute; discriminate.
  - repeat split; vm_compute; reflexivity || lia.
  - intros (_ & _ & _ & H). vm_compute in H. discriminate.
Qed.
