(** Proofs of the properties of the CUDA neighbor search (C41). The
    statements are copied into PropertiesGpuNeighbors.v. *)
From Coq Require Import List Arith ZArith NArith QArith Qround Lia Lqa Bool Permutation.
From Verif Require Import Tensor TensorFacts Spec PointCloud SpecCloud History PointCloudFacts QFacts Grid SpecGrid GridFacts Neighbors SpecNeighbors NeighborFacts NeighborProofs NeighborhoodFacts
  Cuda CudaFacts AddFacts GpuGrid GpuGridFacts GpuScan SpecGpu GpuNeighbors GpuCountFacts SlotFacts GpuStoreFacts GpuNeighborFacts GpuOpFacts GpuRangeFacts GpuGeometry GpuSearchFacts.
Import ListNotations.
Local Open Scope Z_scope.

(** The search on a grid, whatever the radii. *)
Lemma find_neighbors_gpu_raw (active : kernel -> nat) warp time eps D rows ids B cells g ceps crows cids CB cp radii k (P : list Z -> list (nat * nat) -> Prop) :
  (forall x, active x <> 0%nat) -> warp <> 0%nat -> (exists q, 2 ^ 8 * 2 = q * (2 * warp))%nat ->
  supported D -> ids <> [] -> is_gpu_grid eps D rows ids B cells g ->
  is_cloud GPU ceps D crows cids CB cp -> cids <> [] -> Forall (fun b => (b < B)%nat) cids ->
  length (bcast D radii) = D -> (length cids <= 2 ^ 8 * 2 + active KScan * (2 * warp))%nat ->
  (k = 0%nat \/ forall s, (s < length cids)%nat -> (length
       (found_all D crows (gspts g) (gskeys g) (gnc g) (ds_of_grid B g) (closer D (map Qinv (bcast D radii))) (skeys_of D g crows cids) s (offsets D)) <= k)%nat) ->
  (forall A, (forall s, (s < length cids)%nat -> Permutation (A s)
       (found_all D crows (gspts g) (gskeys g) (gnc g) (ds_of_grid B g) (closer D (map Qinv (bcast D radii))) (skeys_of D g crows cids) s (offsets D))) ->
     P (cum_ends 0 (map A (seq 0 (length cids)))) (tagged 0 (map A (seq 0 (length cids))))) ->
  find_neighbors_gpu active warp time g cp radii k P.
Proof.
  intros Ha Hw Hq HD Hne G Hc Hcne Hcids Lr Hlen Hk HP. unfold find_neighbors_gpu.
  rewrite (ic_dim _ _ _ _ _ _ _ (gg_cloud _ _ _ _ _ _ _ G)), (ic_dim _ _ _ _ _ _ _ Hc), (ic_pts _ _ _ _ _ _ _ Hc), (ic_bids _ _ _ _ _ _ _ Hc).
  pose proof (ic_len _ _ _ _ _ _ _ Hc) as LC. pose proof (gg_len _ _ _ _ _ _ _ G) as LR.
  eapply get_DS_gpu_ok; eauto. cbn [dsranges].
  change (map (fun lo => map (fun d => (coord lo d / coord (gcells g) d)%Q) (seq 0 D)) (amin (gbox g))) with (sl_of_grid D g).
  apply find_neighbors_op_ok; auto.
  - now rewrite LC.
  - intros E. rewrite E in LC. destruct cids; [congruence|discriminate].
  - apply (gg_nc_length _ _ _ _ _ _ _ G).
  - apply Forall_forall. intros r Hr. apply In_nth with (d := []) in Hr. destruct Hr as (j & Hj & <-). rewrite (gg_spts_length _ _ _ _ _ _ _ G) in Hj.
    rewrite (gg_spts_nth _ _ _ _ _ _ _ G j Hj). pose proof (ic_rows _ _ _ _ _ _ _ (gg_cloud _ _ _ _ _ _ _ G)) as F. rewrite Forall_forall in F. apply F, nth_In. rewrite LR. apply (gg_sidx_lt _ _ _ _ _ _ _ G); auto.
  - unfold sl_of_grid. apply Forall_forall. intros r Hr. apply in_map_iff in Hr. destruct Hr as (lo & <- & _). now rewrite map_length, seq_length.
  - rewrite map_length, (gg_cells _ _ _ _ _ _ _ G). apply (gg_cells_len _ _ _ _ _ _ _ G).
  - now rewrite map_length.
  - now rewrite (gg_skeys_length _ _ _ _ _ _ _ G), (gg_spts_length _ _ _ _ _ _ _ G).
  - erewrite sl_length by eauto. auto.
  - fold (skeys_of D g crows cids). apply Forall_forall. intros off Ho s Hs. destruct (nc_form eps D rows ids B cells g G HD crows cids LC) as (n0 & n1 & rest & E).
    destruct (offsets_range eps D rows ids B cells g G HD crows cids LC Hcids n0 n1 rest s off E Hs Ho) as (H1 & H2 & H3 & _).
    split; [exact H1|]. split; [exact H2|]. now rewrite (gg_spts_length _ _ _ _ _ _ _ G).
  - fold (skeys_of D g crows cids). rewrite LC. exact Hk.
  - fold (skeys_of D g crows cids). rewrite LC. exact HP.
Qed.

(** The search, with or without a limit that no center reaches. *)
Definition few (k D : nat) (radii : list Q) rows ids crows cids : Prop :=
  forall i, exists l, (length l <= k)%nat /\ forall j, inside_ellipsoid D radii rows ids crows cids j i -> In j l.
Lemma search_grid :
  forall (active : kernel -> nat) warp eps D rows ids B cs g ceps crows cids CB cp radii time k (P : list Z -> list (nat * nat) -> Prop),
    (forall x, active x <> 0%nat) -> warp <> 0%nat -> (exists q, 2 ^ 8 * 2 = q * (2 * warp))%nat ->
    (2 <= D <= 6)%nat -> ids <> [] -> is_gpu_grid eps D rows ids B (bcast D cs) g -> valid_sizes D cs ->
    cids <> [] -> is_cloud GPU ceps D crows cids CB cp -> Forall (fun b => (b < B)%nat) cids -> valid_sizes D radii ->
    (forall d, (d < D)%nat -> nth d (bcast D radii) 1 <= nth d (bcast D cs) 1)%Q ->
    (length cids <= 2 ^ 8 * 2 + active KScan * (2 * warp))%nat ->
    k = 0%nat \/ few k D (bcast D radii) rows ids crows cids ->
    (D <= 3)%nat \/ 3 <= nth (D - 1) (gnc g) 0 ->
    (forall ends nbs, delimits ends nbs (length cids) /\ NoDup nbs /\
        (forall j i, In (j, i) nbs <-> inside_ellipsoid D (bcast D radii) (gspts g) (gsbids g) crows cids j i) -> P ends nbs) ->
    find_neighbors_gpu active warp time g cp radii k P.
Proof.
  intros active warp eps D rows ids B cs g ceps crows cids CB cp radii time k P Ha Hw Hq HD Hne G Hv Hcne Hcc Hcids Hr Hle Hlen Hk Hlast HP.
  pose proof (valid_sizes_pos D cs Hv) as [Lc Pc]. pose proof (valid_sizes_pos D radii Hr) as [Lr Pr].
  pose proof (ic_len _ _ _ _ _ _ _ Hcc) as LC. pose proof (gg_len _ _ _ _ _ _ _ G) as LR.
  assert (Pr' : forall d, (d < D)%nat -> (0 < nth d (bcast D radii) 1)%Q).
  { intros d Hd. rewrite (nth_indep _ 1%Q 0%Q) by lia. apply (Pr d Hd). }
  assert (FA : forall s, (s < length crows)%nat ->
     let F := found_all D crows (gspts g) (gskeys g) (gnc g) (ds_of_grid B g) (closer D (map Qinv (bcast D radii))) (skeys_of D g crows cids) s (offsets D) in
     NoDup F /\ forall j, In j F <-> (j < length ids)%nat /\ nth j (gsbids g) 0%nat = nth s cids 0%nat /\ closer D (map Qinv (bcast D radii)) (nth s crows []) (nth j (gspts g) []) = true).
  { apply found_all_ok with (eps := eps) (rows := rows) (cells := bcast D cs); auto.
    intros s j d Hs Hj Hd Eb Hcl. pose proof (closer_coord D (bcast D radii) _ _ d Lr Pr' Hd Hcl) as Hx.
    unfold pcells, scells. rewrite !QFacts.nth_map_seq by auto. unfold gcell, scell. apply clamp_close.
    rewrite (gg_spts_nth _ _ _ _ _ _ _ G j Hj) in Hx. rewrite (gg_sbids_nth _ _ _ _ _ _ _ G j Hj) in Eb. unfold lo_at. rewrite Eb.
    eapply close_cells; [apply Pc; auto| |exact Hx]. specialize (Hle d Hd). unfold coord. rewrite (nth_indep _ 0%Q 1%Q) by lia. exact Hle. }
  apply find_neighbors_gpu_raw with (eps := eps) (D := D) (rows := rows) (ids := ids) (B := B) (cells := bcast D cs) (ceps := ceps) (crows := crows) (cids := cids) (CB := CB); auto.
  { destruct Hk as [Hk|Hk]; [left; auto|right]. intros s Hs. rewrite LC in FA. destruct (FA s Hs) as (ND & FI). destruct (Hk s) as (l & Ll & Hl).
    set (F := found_all _ _ _ _ _ _ _ _ _ _) in *. etransitivity; [|exact Ll]. rewrite <- (map_length (fun j => nth j (gsidx g) 0%nat) F).
    apply NoDup_incl_length.
    - apply (NeighborhoodFacts.NoDup_map_inj_in (fun j => nth j (gsidx g) 0%nat)); [|exact ND]. intros j j' Hj Hj' E. apply FI in Hj, Hj'.
      destruct (NoDup_nth (gsidx g) 0%nat) as [Q _]. apply Q; auto; try (rewrite (gg_sidx_length _ _ _ _ _ _ _ G); tauto). apply (gg_sidx_NoDup _ _ _ _ _ _ _ G).
    - intros x Hx. apply in_map_iff in Hx. destruct Hx as (j & <- & Hj). apply FI in Hj. destruct Hj as (H1 & H2 & H3). apply Hl.
      unfold inside_ellipsoid. pose proof (gg_sidx_lt _ _ _ _ _ _ _ G j H1). rewrite (gg_sbids_nth _ _ _ _ _ _ _ G j H1) in H2. rewrite (gg_spts_nth _ _ _ _ _ _ _ G j H1) in H3.
      split; auto. split; auto. split; auto. apply closer_iff in H3; auto. }
  intros A HA. apply HP. rewrite LC in FA. set (bl := map A (seq 0 (length cids))).
  assert (Lb : length bl = length cids) by (unfold bl; now rewrite map_length, seq_length). split; [|split].
  - rewrite <- Lb. apply delimits_tagged.
  - apply tagged_NoDup. apply Forall_forall. intros l Hl. unfold bl in Hl. apply in_map_iff in Hl. destruct Hl as (s & <- & Hs). apply in_seq in Hs.
    eapply Permutation_NoDup; [symmetry; apply HA; lia|]. apply FA. lia.
  - intros j i. rewrite tagged_In, Nat.sub_0_r, Lb. unfold inside_ellipsoid. rewrite (gg_sbids _ _ _ _ _ _ _ G) at 1. rewrite map_length, (Permutation_length (gg_sidx_perm _ _ _ _ _ _ _ G)), seq_length. split.
    + intros (Hi & Hj). unfold bl in Hj. rewrite QFacts.nth_map_seq in Hj by lia. apply (Permutation_in _ (HA i ltac:(lia))) in Hj.
      apply FA in Hj; [|lia]. destruct Hj as (H1 & H2 & H3). split; auto. split; [lia|]. split; auto. apply closer_iff in H3; auto.
    + intros (H1 & Hi & H2 & H3). split; [lia|]. unfold bl. rewrite QFacts.nth_map_seq by lia. apply (Permutation_in _ (Permutation_sym (HA i ltac:(lia)))).
      apply FA; [lia|]. split; auto. split; auto. apply closer_iff; auto.
Qed.

Lemma search_ok :
  forall active warp eps D rows ids B cs p ceps crows cids CB cp radii time k,
    (forall x, active x <> 0%nat) -> warp <> 0%nat -> (exists q, 2 ^ 8 * 2 = q * (2 * warp))%nat ->
    (2 <= D <= 6)%nat -> ids <> [] -> cloud GPU eps D rows ids B p -> valid_sizes D cs ->
    cids <> [] -> cloud GPU ceps D crows cids CB cp -> Forall (fun b => (b < B)%nat) cids -> valid_sizes D radii ->
    (forall d, (d < D)%nat -> nth d (all_dims D radii) 1 <= nth d (all_dims D cs) 1)%Q ->
    (length cids <= 2 ^ 8 * 2 + active KScan * (2 * warp))%nat ->
    k = 0%nat \/ few k D (all_dims D radii) rows ids crows cids ->
    mk_grid_gpu (active KKeys) warp eps p cs (fun g =>
      (D <= 3)%nat \/ 3 <= nth (D - 1) (gnc g) 0 ->
      find_neighbors_gpu active warp time g cp radii k (fun ends nbs =>
        delimits ends nbs (length cids) /\ NoDup nbs /\
        forall j i, In (j, i) nbs <-> inside_ellipsoid D (all_dims D radii) (gspts g) (gsbids g) crows cids j i)).
Proof.
  intros active warp eps D rows ids B cs p ceps crows cids CB cp radii time k Ha Hw Hq HD Hne Hc Hv Hcne Hcc Hcids Hr Hle Hlen Hk.
  apply cloud_is in Hc, Hcc. pose proof (valid_sizes_pos D cs Hv) as [Lc Pc]. pose proof (valid_sizes_pos D radii Hr) as [Lr Pr].
  change (all_dims D radii) with (bcast D radii) in *. change (all_dims D cs) with (bcast D cs) in *.
  apply mk_grid_gpu_ok with (D := D) (rows := rows) (ids := ids) (B := B); auto.
  intros g G Hlast. apply search_grid with (eps := eps) (rows := rows) (ids := ids) (B := B) (cs := cs) (ceps := ceps) (crows := crows) (cids := cids) (CB := CB) (D := D); auto.
Qed.

(** * C41 *)

(** C41, partial. The whole search as a user starts it: the grid of a cloud is
    built and searched by the CUDA operations. For every cloud of dimension 2
    to 6, all cell sizes, all centers and all radii up to the cell sizes, for
    every interleaving of the threads of every kernel launch on a device of
    any size: the operations complete, the ranges delimit the rows of every
    center, no row occurs twice, and the rows are exactly the pairs of a grid
    point and a center of the same element inside the ellipsoid of the radii.
    Partial: the number of centers is at most what the prefix sum handles
    without a race (C42), and in dimension 4 to 6 the grid has at least three
    cells along the last axis: the two refutations below show that rows are
    repeated otherwise. *)
Lemma C41_search_partial_proof :
  forall active warp eps D rows ids B cs p ceps crows cids CB cp radii time,
    (forall k, active k <> 0%nat) -> warp <> 0%nat -> (exists q, 2 ^ 8 * 2 = q * (2 * warp))%nat ->
    (2 <= D <= 6)%nat -> ids <> [] -> cloud GPU eps D rows ids B p -> valid_sizes D cs ->
    cids <> [] -> cloud GPU ceps D crows cids CB cp -> Forall (fun b => (b < B)%nat) cids -> valid_sizes D radii ->
    (forall d, (d < D)%nat -> nth d (all_dims D radii) 1 <= nth d (all_dims D cs) 1)%Q ->
    (length cids <= 2 ^ 8 * 2 + active KScan * (2 * warp))%nat ->
    mk_grid_gpu (active KKeys) warp eps p cs (fun g =>
      (D <= 3)%nat \/ 3 <= nth (D - 1) (gnc g) 0 ->
      find_neighbors_gpu active warp time g cp radii 0 (fun ends nbs =>
        delimits ends nbs (length cids) /\ NoDup nbs /\
        forall j i, In (j, i) nbs <-> inside_ellipsoid D (all_dims D radii) (gspts g) (gsbids g) crows cids j i)).
Proof. intros. apply search_ok with (D := D) (rows := rows) (ids := ids) (B := B) (ceps := ceps) (crows := crows) (CB := CB); auto. Qed.

(** The contents of the grid of given points, for the examples. *)
Definition grid_value (eps : Q) (D : nat) (rows : list point) (ids : list nat) (B : nat) (cells : point) : grid :=
  let box := AABB (map (lo_of eps D rows ids) (seq 0 B)) (map (hi_of eps D rows ids) (seq 0 B)) None in
  let nc := num_cells D box cells in
  let keys := map (fun i => (Z.of_nat (nth i ids 0%nat) * zprod nc +
      radix nc (map (gcell eps D rows ids cells nc i) (seq 0 D)))%Z) (seq 0 (length ids)) in
  let sidx := argsort_desc keys in
  Grid (seg D rows ids B) cells box nc keys sidx (map (fun i => nth i keys 0%Z) sidx) (map (fun i => nth i rows []) sidx) (map (fun i => nth i ids 0%nat) sidx) None.
Lemma grid_value_ok eps D rows ids B cells g : is_gpu_grid eps D rows ids B cells g ->
  let v := grid_value eps D rows ids B cells in
  gnc g = gnc v /\ gskeys g = gskeys v /\ gspts g = gspts v /\ gsbids g = gsbids v /\
  ds_of_grid B g = ds_of_grid B v /\ forall crows cids, skeys_of D g crows cids = skeys_of D v crows cids.
Proof.
  intros G v.
  assert (E1 : gnc g = gnc v).
  { rewrite (gg_nc _ _ _ _ _ _ _ G). unfold v, grid_value, num_cells. cbn [gnc amin amax]. now rewrite (gg_min _ _ _ _ _ _ _ G), (gg_max _ _ _ _ _ _ _ G). }
  assert (E2 : gkeys g = gkeys v).
  { rewrite (gg_keys _ _ _ _ _ _ _ G), E1. reflexivity. }
  assert (E3 : gsidx g = gsidx v).
  { rewrite (gg_sidx _ _ _ _ _ _ _ G), E2. reflexivity. }
  assert (E4 : gskeys g = gskeys v).
  { rewrite (gg_skeys _ _ _ _ _ _ _ G), E2, E3. reflexivity. }
  split; [auto|]. split; [auto|]. split; [rewrite (gg_spts _ _ _ _ _ _ _ G), E3; reflexivity|]. split; [rewrite (gg_sbids _ _ _ _ _ _ _ G), E3; reflexivity|].
  split; [unfold ds_of_grid; now rewrite E1, E4|]. intros crows cids. unfold skeys_of, sl_of_grid. rewrite E1, (gg_cells _ _ _ _ _ _ _ G), (gg_min _ _ _ _ _ _ _ G). reflexivity.
Qed.
Lemma search_value (active : kernel -> nat) warp time eps D rows ids B p cs ceps crows cids CB cp radii (P : grid -> list Z -> list (nat * nat) -> Prop) :
  (forall k, active k <> 0%nat) -> warp <> 0%nat -> (exists q, 2 ^ 8 * 2 = q * (2 * warp))%nat ->
  supported D -> ids <> [] -> cloud GPU eps D rows ids B p -> valid_sizes D cs ->
  cids <> [] -> cloud GPU ceps D crows cids CB cp -> Forall (fun b => (b < B)%nat) cids ->
  length (bcast D radii) = D -> (length cids <= 2 ^ 8 * 2 + active KScan * (2 * warp))%nat ->
  (forall g A, let v := grid_value eps D rows ids B (bcast D cs) in
     gnc g = gnc v -> gspts g = gspts v -> gsbids g = gsbids v ->
     (forall s, (s < length cids)%nat -> Permutation (A s)
       (found_all D crows (gspts v) (gskeys v) (gnc v) (ds_of_grid B v) (closer D (map Qinv (bcast D radii))) (skeys_of D v crows cids) s (offsets D))) ->
     P g (cum_ends 0 (map A (seq 0 (length cids)))) (tagged 0 (map A (seq 0 (length cids))))) ->
  mk_grid_gpu (active KKeys) warp eps p cs (fun g => find_neighbors_gpu active warp time g cp radii 0 (P g)).
Proof.
  intros Ha Hw Hq HD Hne Hc Hv Hcne Hcc Hcids Lr Hlen HP. apply cloud_is in Hc, Hcc.
  apply mk_grid_gpu_ok with (D := D) (rows := rows) (ids := ids) (B := B); auto. intros g G.
  destruct (grid_value_ok _ _ _ _ _ _ _ G) as (E1 & E2 & E3 & E4 & E5 & E6).
  apply find_neighbors_gpu_raw with (eps := eps) (D := D) (rows := rows) (ids := ids) (B := B) (cells := bcast D cs) (ceps := ceps) (crows := crows) (cids := cids) (CB := CB); auto.
  intros A HA. apply HP; auto. rewrite E1, E2, E3, E5, E6 in HA. exact HA.
Qed.

Example C41_search_partial_ex_proof :
  forall active time, (forall k, active k <> 0%nat) ->
  cloud GPU (1#1000) 2 exN_rows exN_ids 2 (seg 2 exN_rows exN_ids 2) /\
  cloud GPU (1#1000) 2 exN_centers exN_cids 2 (seg 2 exN_centers exN_cids 2) /\
  mk_grid_gpu (active KKeys) 32 (1#1000) (seg 2 exN_rows exN_ids 2) [1#1] (fun g =>
    gnc g = [4; 4] /\ gspts g = [[1#2;1#2];[9#10;9#10];[3#1;3#1];[5#2;0#1];[0#1;0#1];[1#2;1#2]] /\
    find_neighbors_gpu active 32 time g (seg 2 exN_centers exN_cids 2) [1#1] 0 (fun ends nbs =>
      ends = [1;2;2;2;3] /\ nbs = [(4,0);(5,1);(0,4)]%nat)).
Proof.
  intros active time Ha. assert (C1 : cloud GPU (1#1000) 2 exN_rows exN_ids 2 (seg 2 exN_rows exN_ids 2)) by (apply seg_cloud; repeat constructor).
  assert (C2 : cloud GPU (1#1000) 2 exN_centers exN_cids 2 (seg 2 exN_centers exN_cids 2)) by (apply seg_cloud; repeat constructor).
  split; [auto|]. split; [auto|]. pose proof (cloud_is _ _ _ _ _ _ _ C1) as I1. pose proof (cloud_is _ _ _ _ _ _ _ C2) as I2.
  apply mk_grid_gpu_ok with (D := 2%nat) (rows := exN_rows) (ids := exN_ids) (B := 2%nat); auto; try discriminate.
  { unfold supported; lia. } { split; [reflexivity|repeat constructor]. }
  intros g G. destruct (grid_value_ok _ _ _ _ _ _ _ G) as (E1 & E2 & E3 & E4 & E5 & E6).
  split; [rewrite E1; vm_compute; reflexivity|]. split; [rewrite E3; vm_compute; reflexivity|].
  apply find_neighbors_gpu_raw with (eps := 1#1000) (D := 2%nat) (rows := exN_rows) (ids := exN_ids) (B := 2%nat) (cells := bcast 2 [1#1]) (ceps := 1#1000) (crows := exN_centers) (cids := exN_cids) (CB := 2%nat);
    [exact Ha|discriminate|exists 8%nat; reflexivity|unfold supported; lia|discriminate|exact G|exact I2|discriminate|repeat constructor|reflexivity|specialize (Ha KScan); cbn; lia|left; reflexivity|].
  intros A HA. rewrite E1, E2, E3, E5, E6 in HA. cbn [length exN_cids seq map].
  pose proof (HA 0%nat ltac:(cbn; lia)) as H0. pose proof (HA 1%nat ltac:(cbn; lia)) as H1. pose proof (HA 2%nat ltac:(cbn; lia)) as H2.
  pose proof (HA 3%nat ltac:(cbn; lia)) as H3. pose proof (HA 4%nat ltac:(cbn; lia)) as H4. clear HA E1 E2 E3 E4 E5 E6.
  vm_compute in H0, H1, H2, H3, H4. apply Permutation_sym in H0, H1, H2, H3, H4.
  apply Permutation_length_1_inv in H0, H1, H4. apply Permutation_nil in H2, H3. rewrite H0, H1, H2, H3, H4. split; reflexivity.
Qed.

(** C41 refuted. In four dimensions, with a single cell along the last axis,
    each of two points further apart than the radius gets two identical rows,
    both naming itself, whatever the schedule. *)
Definition ex41_rows : list point := [[0;0;0;0];[0;0;3#2;0]]%Q.
Lemma C41_four_dimensions_refuted_proof :
  forall active time, (forall k, active k <> 0%nat) ->
  cloud GPU (1#1000) 4 ex41_rows [0;0]%nat 1 (seg 4 ex41_rows [0;0]%nat 1) /\
  mk_grid_gpu (active KKeys) 32 (1#1000) (seg 4 ex41_rows [0;0]%nat 1) [1#1] (fun g =>
    find_neighbors_gpu active 32 time g (seg 4 ex41_rows [0;0]%nat 1) [1#1] 0 (fun ends nbs =>
      gnc g = [1;1;2;1] /\ ends = [2;4] /\ nbs = [(1,0);(1,0);(0,1);(0,1)]%nat)).
Proof.
  intros active time Ha. assert (C1 : cloud GPU (1#1000) 4 ex41_rows [0;0]%nat 1 (seg 4 ex41_rows [0;0]%nat 1)) by (apply seg_cloud; repeat constructor).
  split; [auto|].
  apply search_value with (D := 4%nat) (rows := ex41_rows) (ids := [0;0]%nat) (B := 1%nat) (ceps := 1#1000) (crows := ex41_rows) (cids := [0;0]%nat) (CB := 1%nat);
    [exact Ha|discriminate|exists 8%nat; reflexivity|unfold supported; lia|discriminate|exact C1|split; [reflexivity|repeat constructor]|discriminate|exact C1|repeat constructor|reflexivity|specialize (Ha KScan); cbn; lia|].
  intros g A v Ev _ _ HA. split; [rewrite Ev; vm_compute; reflexivity|]. cbn [length seq map].
  pose proof (HA 0%nat ltac:(cbn; lia)) as H0. pose proof (HA 1%nat ltac:(cbn; lia)) as H1. clear HA Ev. subst v. vm_compute in H0, H1.
  apply Permutation_sym, Permutation_length_2_inv in H0. apply Permutation_sym, Permutation_length_2_inv in H1.
  assert (E0 : A 0%nat = [1;1]%nat) by (destruct H0; auto). assert (E1 : A 1%nat = [0;0]%nat) by (destruct H1; auto). rewrite E0, E1. split; reflexivity.
Qed.
(** C41 refuted. Two cells along the last axis are not enough either. *)
Definition ex41_rows' : list point := [[0;0;0;0];[0;0;3#2;3#2];[0;0;11#10;9#10]]%Q.
Lemma C41_two_cells_refuted_proof :
  forall active time, (forall k, active k <> 0%nat) ->
  cloud GPU (1#1000) 4 ex41_rows' [0;0;0]%nat 1 (seg 4 ex41_rows' [0;0;0]%nat 1) /\
  cloud GPU (1#1000) 4 [[0;0;9#10;11#10]%Q] [0]%nat 1 (seg 4 [[0;0;9#10;11#10]%Q] [0]%nat 1) /\
  mk_grid_gpu (active KKeys) 32 (1#1000) (seg 4 ex41_rows' [0;0;0]%nat 1) [1#1] (fun g =>
    find_neighbors_gpu active 32 time g (seg 4 [[0;0;9#10;11#10]%Q] [0]%nat 1) [1#1] 0 (fun ends nbs =>
      gnc g = [1;1;2;2] /\ ends = [3] /\ ~ NoDup nbs)).
Proof.
  intros active time Ha. assert (C1 : cloud GPU (1#1000) 4 ex41_rows' [0;0;0]%nat 1 (seg 4 ex41_rows' [0;0;0]%nat 1)) by (apply seg_cloud; repeat constructor).
  assert (C2 : cloud GPU (1#1000) 4 [[0;0;9#10;11#10]%Q] [0]%nat 1 (seg 4 [[0;0;9#10;11#10]%Q] [0]%nat 1)) by (apply seg_cloud; repeat constructor).
  split; [auto|]. split; [auto|].
  apply search_value with (D := 4%nat) (rows := ex41_rows') (ids := [0;0;0]%nat) (B := 1%nat) (ceps := 1#1000) (crows := [[0;0;9#10;11#10]%Q]) (cids := [0]%nat) (CB := 1%nat);
    [exact Ha|discriminate|exists 8%nat; reflexivity|unfold supported; lia|discriminate|exact C1|split; [reflexivity|repeat constructor]|discriminate|exact C2|repeat constructor|reflexivity|specialize (Ha KScan); cbn; lia|].
  intros g A v Ev _ _ HA. split; [rewrite Ev; vm_compute; reflexivity|]. cbn [length seq map].
  pose proof (HA 0%nat ltac:(cbn; lia)) as H0. clear HA Ev. subst v. vm_compute in H0.
  cbn [cum_ends tagged]. rewrite (Permutation_length H0), app_nil_r. split; [reflexivity|].
  intros ND. assert (N1 : NoDup (A 0%nat)).
  { eapply NoDup_map_inv. exact ND. }
  apply (Permutation_NoDup H0) in N1. inversion_clear N1. inversion_clear H1. cbn in *. tauto.
Qed.

(** C41 refuted for an empty set of centers: no thread block is started and
    the process ends. *)
Lemma get_DS_gpu_both active warp g (P Q : grid_ds -> Prop) :
  get_DS_gpu active warp g P -> get_DS_gpu active warp g Q -> exists ds, P ds /\ Q ds.
Proof.
  unfold get_DS_gpu. destruct (gds g) as [d|]; [eauto|]. intros (_ & _ & _ & R) (_ & _ & _ & R').
  destruct (every_run_both _ _ _ R R') as (m & HP & HQ). eauto.
Qed.
Lemma C41_no_centers_refuted_proof :
  forall active warp eps D rows ids B cs p ceps CB cp radii k time,
    (forall k, active k <> 0%nat) -> warp <> 0%nat ->
    (2 <= D <= 6)%nat -> ids <> [] -> cloud GPU eps D rows ids B p -> valid_sizes D cs -> cloud GPU ceps D [] [] CB cp ->
    mk_grid_gpu (active KKeys) warp eps p cs (fun g =>
      ~ find_neighbors_gpu active warp time g cp radii k (fun _ _ => True)).
Proof.
  intros active warp eps D rows ids B cs p ceps CB cp radii k time Ha Hw HD Hne Hc Hv Hcc. apply cloud_is in Hc, Hcc.
  apply mk_grid_gpu_ok with (D := D) (rows := rows) (ids := ids) (B := B); auto. intros g G F. unfold find_neighbors_gpu in F.
  assert (T : get_DS_gpu (active KDs) warp g (fun _ => True)) by (eapply get_DS_gpu_ok with (crows := []) (cids := []); eauto; constructor).
  destruct (get_DS_gpu_both _ _ _ _ _ F T) as (ds & (_ & _ & _ & _ & _ & _ & _ & _ & K) & _). rewrite (ic_pts _ _ _ _ _ _ _ Hcc) in K.
  destruct K as (_ & _ & _ & _ & _ & K). destruct (K [] eq_refl) as (K0 & _). apply K0. unfold num_blocks. cbn [length].
  rewrite Nat.div_0_l, Nat.mod_0_l by lia. cbn. lia.
Qed.
