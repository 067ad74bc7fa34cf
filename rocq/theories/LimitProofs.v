(** Proofs of the property of the limit on the number of neighbors (C43). The
    statements are copied into PropertiesLimit.v. *)
From Coq Require Import List Arith ZArith NArith QArith Qround Lia Lqa Bool Permutation.
From Verif Require Import Tensor TensorFacts Spec PointCloud SpecCloud History PointCloudFacts QFacts Grid SpecGrid GridFacts Neighbors SpecNeighbors NeighborFacts NeighborProofs
  Cuda CudaFacts CudaExec AddFacts GpuGrid GpuGridFacts GpuGridProofs GpuScan SpecGpu GpuScanFacts GpuScanRuns GpuScanProofs GpuNeighbors GpuCountFacts SlotFacts GpuStoreFacts LimitFacts GpuNeighborFacts GpuOpFacts
  GpuRangeFacts GpuGeometry GpuSearchFacts GpuNeighborProofs.
Import ListNotations.
Local Open Scope Z_scope.

(** * C43 *)

(** C43, partial. With a limit that no center exceeds, every center gets all
    its neighbors, each once, for every schedule and every value of the clock
    the random numbers start from: the result is as without limit (C41). What
    is missing is the case in which some center has more neighbors; it is
    refuted below. *)
Lemma C43_few_neighbors_partial_proof :
  forall active warp eps D rows ids B cs p ceps crows cids CB cp radii time k,
    (forall x, active x <> 0%nat) -> warp <> 0%nat -> (exists q, 2 ^ 8 * 2 = q * (2 * warp))%nat ->
    (2 <= D <= 6)%nat -> ids <> [] -> cloud GPU eps D rows ids B p -> valid_sizes D cs ->
    cids <> [] -> cloud GPU ceps D crows cids CB cp -> Forall (fun b => (b < B)%nat) cids -> valid_sizes D radii ->
    (forall d, (d < D)%nat -> nth d (all_dims D radii) 1 <= nth d (all_dims D cs) 1)%Q ->
    (length cids <= 2 ^ 8 * 2 + active KScan * (2 * warp))%nat ->
    (forall i, exists l, (length l <= k)%nat /\ forall j, inside_ellipsoid D (all_dims D radii) rows ids crows cids j i -> In j l) ->
    mk_grid_gpu (active KKeys) warp eps p cs (fun g =>
      (D <= 3)%nat \/ 3 <= nth (D - 1) (gnc g) 0 ->
      find_neighbors_gpu active warp time g cp radii k (fun ends nbs =>
        delimits ends nbs (length cids) /\ NoDup nbs /\
        forall j i, In (j, i) nbs <-> inside_ellipsoid D (all_dims D radii) (gspts g) (gsbids g) crows cids j i)).
Proof. intros. apply search_ok with (D := D) (rows := rows) (ids := ids) (B := B) (ceps := ceps) (crows := crows) (CB := CB); auto. Qed.

(** ** Two claims about the same run *)
Lemma launch_both {M} blocks (m : M) k (P Q : M -> Prop) : launch blocks m k P -> launch blocks m k Q -> exists m', P m' /\ Q m'.
Proof. intros [_ R] [_ R']. eapply every_run_both; eauto. Qed.
Lemma compute_keys_op_both active warp D ps ids sl nc inv (P Q : list Z -> Prop) :
  compute_keys_op active warp D ps ids sl nc inv P -> compute_keys_op active warp D ps ids sl nc inv Q -> exists k, P k /\ Q k.
Proof.
  intros (_ & _ & _ & _ & _ & H) (_ & _ & _ & _ & _ & H').
  specialize (H (repeat 0 (length ps)) (repeat_length _ _)). specialize (H' (repeat 0 (length ps)) (repeat_length _ _)). eapply launch_both; eauto.
Qed.
Lemma count_both active warp near samples ps nr ranges counts (P Q : list Z -> Prop) :
  count_neighbors_gpu active warp near samples ps nr ranges counts P -> count_neighbors_gpu active warp near samples ps nr ranges counts Q -> exists c, P c /\ Q c.
Proof.
  unfold count_neighbors_gpu. set (blocks := num_blocks _ _ _). intros H H'. set (temps := repeat (repeat 0 (2 * (2 * warp))) blocks).
  assert (L : length temps = blocks) by apply repeat_length.
  assert (F : Forall (fun l => length l = (2 * (2 * warp))%nat) temps).
  { apply Forall_forall. intros l Hl. apply repeat_spec in Hl. subst l. apply repeat_length. }
  destruct (launch_both _ _ _ _ _ (H temps L F) (H' temps L F)) as (m & Pm & Qm). destruct m; try contradiction. eauto.
Qed.
Lemma count_pass_both active warp D near samples ps keys nc ds skeys groups : forall ranges counts (P Q : list (Z * Z) -> list Z -> Prop),
  count_pass active warp D near samples ps keys nc ds skeys groups ranges counts P -> count_pass active warp D near samples ps keys nc ds skeys groups ranges counts Q ->
  exists r c, P r c /\ Q r c.
Proof.
  induction groups as [|offs groups IH]; intros ranges counts P Q H H'; cbn [count_pass] in *; [eauto|].
  destruct (launch_both _ _ _ _ _ H H') as (rg & H1 & H1'). destruct (count_both _ _ _ _ _ _ _ _ _ _ H1 H1') as (c & H2 & H2'). eauto.
Qed.
Lemma prop_step_both active warp k elems counters (P Q : list Z -> Prop) :
  prop_step active warp k elems counters P -> prop_step active warp k elems counters Q -> exists e, P e /\ Q e.
Proof.
  unfold prop_step. destruct (length elems <=? 2 ^ k * 2)%nat; [eauto|]. set (blocks := num_blocks _ _ _). intros H H'.
  assert (F : Forall (fun l => length l = 1%nat) (repeat [0] blocks)).
  { apply Forall_forall. intros l Hl. apply repeat_spec in Hl. now subst l. }
  destruct (launch_both _ _ _ _ _ (H _ (repeat_length _ _) F) (H' _ (repeat_length _ _) F)) as (m & Pm & Qm). destruct m; try contradiction. eauto.
Qed.
Lemma scan_levels_both active warp k fuel : forall elems (P Q : list Z -> Z -> Prop),
  scan_levels fuel active warp k elems P -> scan_levels fuel active warp k elems Q -> exists e t, P e t /\ Q e t.
Proof.
  induction fuel as [|fuel IH]; intros elems P Q H H'; [contradiction|]. cbn [scan_levels] in *.
  destruct (scan_step_both _ _ _ _ _ H H') as (e & c & H1 & H1'). destruct (1 <? length c)%nat.
  - destruct (IH _ _ _ H1 H1') as (c' & t & H2 & H2'). destruct (prop_step_both _ _ _ _ _ _ _ H2 H2') as (o & H3 & H3'). eauto.
  - destruct (prop_step_both _ _ _ _ _ _ _ H1 H1') as (o & H3 & H3'). eauto.
Qed.

(** In two and three dimensions, the state in which the rows are stored. *)
Lemma find_neighbors_op_stage (active : kernel -> nat) warp D time samples sids pts keys ds nc sl inv invr k (P : list Z -> list (nat * nat) -> Prop) :
  (forall k, active k <> 0%nat) -> warp <> 0%nat -> (exists q, 2 ^ 8 * 2 = q * (2 * warp))%nat ->
  (length samples <= 2 ^ 8 * 2 + active KScan * (2 * warp))%nat -> samples <> [] ->
  (2 <= D <= 3)%nat -> Forall (fun b => (b < length sl)%nat) sids -> k <> 0%nat ->
  let N := length samples in
  let skeys := map (fun i => gpu_key nc (gpu_cell D (nth (nth i sids 0%nat) sl []) inv nc (nth i samples [])) (nth i sids 0%nat)) (seq 0 N) in
  Forall (good D samples pts keys nc ds skeys) (offsets D) ->
  find_neighbors_op active warp D time samples sids pts keys ds nc sl inv invr k P ->
  let offs := nth 0 (offset_groups D) [] in
  let counts := map (fun s => Z.of_nat (length (found_all D samples pts keys nc ds (closer D invr) skeys s offs))) (seq 0 N) in
  let lim := map (fun v => Z.min v (Z.of_nat k)) counts in
  store_neighbors_gpu (active KStore) warp time k (closer D invr) samples pts 9 (ranges_of D samples keys nc ds skeys offs) counts
    (map (rsum (val lim) 0) (seq 0 N)) (repeat (0, 0)%nat (Z.to_nat (rsum (val lim) 0 N))) P.
Proof.
  intros Ha Hw Hq Hlen Hne HD Hb Hk N skeys Hgood (HD' & Hnc & Hpts & Hsl & Hinv & Hinvr & Hsids & Hkeys & H) offs counts lim.
  assert (HN : N <> 0%nat) by (unfold N; destruct samples; cbn; congruence).
  assert (Lsk : length skeys = length samples) by (unfold skeys; now rewrite map_length, seq_length).
  destruct (groups_offsets D HD') as (Ecat & F9 & [(H1 & _)|(_ & H1)]); [|lia].
  assert (Eg : offset_groups D = [offs]).
  { unfold offs. destruct (offset_groups D) as [|o [|? ?]]; try discriminate. reflexivity. }
  assert (FG : Forall (group D samples pts keys nc ds skeys) [offs]).
  { rewrite Eg in Ecat, F9. cbn [concat] in Ecat. rewrite app_nil_r in Ecat. inversion F9; subst. constructor; [|constructor]. split; [auto|]. now rewrite Ecat. }
  assert (K : compute_keys_op (active KKeys) warp D samples sids sl nc inv (fun x => x = skeys)).
  { apply compute_keys_op_ok; auto. destruct sids; [cbn in Hsids; unfold N in HN; lia|discriminate]. }
  destruct (compute_keys_op_both _ _ _ _ _ _ _ _ _ _ H K) as (? & H2 & ->). clear H K. unfold search_op in H2. cbv zeta in H2. rewrite Eg in H2.
  assert (C : count_pass active warp D (closer D invr) samples pts keys nc ds skeys [offs] [] (repeat 0 (length samples))
     (fun r c => r = ranges_of D samples keys nc ds skeys offs /\ c = counts)).
  { apply count_pass_ok; auto. { apply repeat_length. } cbn [map last concat]. split; [auto|]. rewrite app_nil_r. apply map_ext. intros s. now rewrite nth_repeat. }
  destruct (count_pass_both _ _ _ _ _ _ _ _ _ _ _ _ _ _ _ H2 C) as (? & ? & H3 & -> & ->). clear H2 C.
  destruct (Nat.eqb_spec k 0) as [?|_]; [congruence|].
  assert (Lc : length counts = N) by (unfold counts; now rewrite map_length, seq_length).
  assert (M : elem_wise_min_gpu (active KMin) warp (Z.of_nat k) counts (fun c => c = lim)).
  { apply elem_wise_min_ok; auto. intros E. rewrite E in Lc. cbn in Lc. lia. }
  destruct (launch_both _ _ _ _ _ H3 M) as (? & H4 & ->). clear H3 M.
  assert (Ll : length lim = N) by (unfold lim; now rewrite map_length).
  assert (Sc : scan_alg (active KScan) warp 8 lim (fun st t => st = map (rsum (val lim) 0) (seq 0 N) /\ t = rsum (val lim) 0 N)).
  { unfold scan_alg. apply scan_levels_ok; auto.
    - intros E. rewrite E in Ll. cbn in Ll. lia.
    - now rewrite Ll.
    - rewrite Ll. auto. }
  unfold scan_alg in H4, Sc. destruct (scan_levels_both _ _ _ _ _ _ _ H4 Sc) as (? & ? & H5 & -> & ->).
  cbn [length Nat.ltb Nat.leb store_pass] in H5. exact H5.
Qed.

(** ** The refutations *)
Definition ex43_rows : list point := [[0;0];[1#10;0]]%Q.
(** The limit is one and the only center has two neighbors. *)
Lemma limit_stage time g radii P : radii = [1#1] \/ radii = [1#1; 1#1] -> is_gpu_grid (1#1000) 2 ex43_rows [0;0]%nat 1 (bcast 2 [1#1]) g ->
  find_neighbors_gpu (fun _ => 1%nat) 32 time g (seg 2 [[0;0]%Q] [0]%nat 1) radii 1 P ->
  every_run (fun _ => True) (LMem [0] [0] (map (fun g => LRegs (wang_hash (w32 (time + N.of_nat g))) 0 None) (seq 0 64)) [(0, 0)%nat],
    thread_kernel 1 64 144 (store_limited_body 1 [2] (9 * 16) (found (closer 2 [1;1]%Q) [[0;0]%Q] ex43_rows
      (map (fun i => if Nat.eqb i 4 then (0, 2) else (0, 0)) (seq 0 9)) 9))).
Proof.
  intros Hrad G F.
  assert (Hv : valid_sizes 2 [1#1]) by (split; [reflexivity|repeat constructor]).
  unfold find_neighbors_gpu in F.
  assert (T : get_DS_gpu 1 32 g (fun ds => dsranges ds = ds_of_grid 1 g)).
  { eapply get_DS_gpu_ok with (crows := []) (cids := []); eauto; try discriminate. unfold supported; lia. }
  destruct (get_DS_gpu_both _ _ _ _ _ F T) as (ds & H & Ed). rewrite Ed in H. clear F T Ed.
  rewrite (ic_dim _ _ _ _ _ _ _ (gg_cloud _ _ _ _ _ _ _ G)) in H.
  change (map (fun lo => map (fun d => (coord lo d / coord (gcells g) d)%Q) (seq 0 2)) (amin (gbox g))) with (sl_of_grid 2 g) in H.
  cbn [dim pts bids seg] in H.
  assert (HC : Forall (fun b => (b < 1)%nat) [0%nat]) by repeat constructor.
  assert (S2 : supported 2) by (unfold supported; lia).
  destruct (nc_form _ _ _ _ _ _ _ G S2 [[0;0]%Q] [0%nat] eq_refl) as (n0 & n1 & rest & En).
  assert (Good : Forall (good 2 [[0;0]%Q] (gspts g) (gskeys g) (gnc g) (ds_of_grid 1 g) (skeys_of 2 g [[0;0]%Q] [0%nat])) (offsets 2)).
  { apply Forall_forall. intros off Ho s Hs.
    destruct (offsets_range _ _ _ _ _ _ _ G S2 [[0;0]%Q] [0%nat] eq_refl HC n0 n1 rest s off En Hs Ho) as (H1 & H2 & H3 & _).
    split; [exact H1|]. split; [exact H2|]. now rewrite (gg_spts_length _ _ _ _ _ _ _ G). }
  apply find_neighbors_op_stage in H; try discriminate; auto.
  2:{ exists 8%nat. reflexivity. } 2:{ apply Nat.leb_le. reflexivity. } 2:{ erewrite sl_length by eauto. auto. }
  fold (skeys_of 2 g [[0;0]%Q] [0%nat]) in H.
  destruct (grid_value_ok _ _ _ _ _ _ _ G) as (E1 & E2 & E3 & _ & E5 & E6). rewrite E1, E2, E3, E5, E6 in H. clear E1 E2 E3 E5 E6 En Good.
  assert (Erad : bcast 2 radii = [1#1; 1#1]) by (destruct Hrad; subst radii; reflexivity). rewrite Erad in H.
  set (v := grid_value _ _ _ _ _ _) in H.
  set (rg := ranges_of _ _ _ _ _ _ _) in H. assert (Er : rg = map (fun i => if Nat.eqb i 4 then (0, 2) else (0, 0)) (seq 0 9)) by (vm_compute; reflexivity). clearbody rg. subst rg.
  set (ct := map (fun s => Z.of_nat (length (found_all _ _ _ _ _ _ _ _ s _))) _) in H. assert (Ec : ct = [2]) by (vm_compute; reflexivity). clearbody ct. subst ct.
  set (pt := gspts v) in H. assert (Ep : pt = ex43_rows) by (vm_compute; reflexivity). clearbody pt. subst pt.
  set (iv := map Qinv _) in H. assert (Ei : iv = [1;1]%Q) by (vm_compute; reflexivity). clearbody iv. subst iv.
  set (st := map (rsum _ 0) _) in H. assert (Es : st = [0]) by (vm_compute; reflexivity). clearbody st. subst st.
  set (o := repeat _ _) in H. assert (Eo : o = [(0, 0)%nat]) by (vm_compute; reflexivity). clearbody o. subst o.
  unfold store_neighbors_gpu in H. cbn [Nat.eqb length Z.of_nat repeat] in H.
  replace (num_blocks 1 (2 * 32) (1 * 9 * 16)) with 1%nat in H by reflexivity. 
  refine (every_run_weaken _ _ _ (fun _ _ => I) (proj2 (H (map (fun g => LRegs (wang_hash (w32 (time + N.of_nat g))) 0 None) (seq 0 64)) _ _))).
  - now rewrite map_length, seq_length.
  - intros i r Hi. rewrite nth_error_map in Hi. destruct (Nat.lt_ge_cases i 64) as [Q|Q].
    + rewrite (nth_error_nth' (seq 0 64) i 0%nat), seq_nth in Hi by (rewrite ?seq_length; auto). cbn [option_map] in Hi. injection Hi as <-. reflexivity.
    + replace (nth_error (seq 0 64) i) with (@None nat) in Hi; [discriminate|]. symmetry. apply nth_error_None. now rewrite seq_length.
Qed.

(** C43 refuted. Two threads find the two neighbors of the only center, the
    limit is one. The thread that comes second at the first counter reads the
    second counter before the other one has advanced it, and writes before the
    start of the rows. *)
Lemma C43_race_refuted_proof :
  cloud GPU (1#1000) 2 ex43_rows [0;0]%nat 1 (seg 2 ex43_rows [0;0]%nat 1) /\
  cloud GPU (1#1000) 2 [[0;0]%Q] [0]%nat 1 (seg 2 [[0;0]%Q] [0]%nat 1) /\
  mk_grid_gpu 1 32 (1#1000) (seg 2 ex43_rows [0;0]%nat 1) [1#1] (fun g =>
    ~ find_neighbors_gpu (fun _ => 1%nat) 32 0 g (seg 2 [[0;0]%Q] [0]%nat 1) [1#1] 1 (fun _ _ => True)).
Proof.
  assert (C1 : cloud GPU (1#1000) 2 ex43_rows [0;0]%nat 1 (seg 2 ex43_rows [0;0]%nat 1)) by (apply seg_cloud; repeat constructor).
  assert (C2 : cloud GPU (1#1000) 2 [[0;0]%Q] [0]%nat 1 (seg 2 [[0;0]%Q] [0]%nat 1)) by (apply seg_cloud; repeat constructor).
  split; [auto|]. split; [auto|]. apply mk_grid_gpu_ok with (D := 2%nat) (rows := ex43_rows) (ids := [0;0]%nat) (B := 1%nat); auto; try discriminate.
  { unfold supported; lia. } { now apply cloud_is. } { split; [reflexivity|repeat constructor]. }
  intros g G F. apply limit_stage in F; auto. eapply every_run_no_fault; [exact F|].
  match goal with |- some_fault ?s => destruct (exec [(0, Some 0); (0, Some 1); (0, Some 1)]%nat s) as [s'|] eqn:E; [|vm_compute in E; discriminate] end.
  eapply exec_fault; [exact E|]. vm_compute in E. injection E as <-. vm_compute. reflexivity.
Qed.

(** C43 refuted. Even when the two threads run one after the other the row of
    the second one is written before the start of the rows for some values of
    the clock: the random number is truncated to 0 or 1, and 1 makes the slot
    negative. *)
Lemma C43_seed_refuted_proof :
  mk_grid_gpu 1 32 (1#1000) (seg 2 ex43_rows [0;0]%nat 1) [1#1] (fun g =>
    ~ find_neighbors_gpu (fun _ => 1%nat) 32 1773068434 g (seg 2 [[0;0]%Q] [0]%nat 1) [1#1] 1 (fun _ _ => True)).
Proof.
  assert (C1 : cloud GPU (1#1000) 2 ex43_rows [0;0]%nat 1 (seg 2 ex43_rows [0;0]%nat 1)) by (apply seg_cloud; repeat constructor).
  apply mk_grid_gpu_ok with (D := 2%nat) (rows := ex43_rows) (ids := [0;0]%nat) (B := 1%nat); auto; try discriminate.
  { unfold supported; lia. } { now apply cloud_is. } { split; [reflexivity|repeat constructor]. }
  intros g G F. apply limit_stage in F; auto. eapply every_run_no_fault; [exact F|].
  match goal with |- some_fault ?s => destruct (exec [(0, Some 0); (0, Some 0); (0, Some 0); (0, Some 1); (0, Some 1)]%nat s) as [s'|] eqn:E; [|vm_compute in E; discriminate] end.
  eapply exec_fault; [exact E|]. vm_compute in E. injection E as <-. vm_compute. reflexivity.
Qed.

(** The clouds of the C41 example with the limit one, which no center exceeds. *)
Example C43_few_neighbors_partial_ex_proof :
  forall active time, (forall k, active k <> 0%nat) ->
  mk_grid_gpu (active KKeys) 32 (1#1000) (seg 2 exN_rows exN_ids 2) [1#1] (fun g =>
    find_neighbors_gpu active 32 time g (seg 2 exN_centers exN_cids 2) [1#1] 1 (fun ends nbs =>
      ends = [1;2;2;2;3] /\ nbs = [(4,0);(5,1);(0,4)]%nat)).
Proof.
  intros active time Ha. assert (C1 : cloud GPU (1#1000) 2 exN_rows exN_ids 2 (seg 2 exN_rows exN_ids 2)) by (apply seg_cloud; repeat constructor).
  assert (C2 : cloud GPU (1#1000) 2 exN_centers exN_cids 2 (seg 2 exN_centers exN_cids 2)) by (apply seg_cloud; repeat constructor).
  pose proof (cloud_is _ _ _ _ _ _ _ C1) as I1. pose proof (cloud_is _ _ _ _ _ _ _ C2) as I2.
  apply mk_grid_gpu_ok with (D := 2%nat) (rows := exN_rows) (ids := exN_ids) (B := 2%nat); auto; try discriminate.
  { unfold supported; lia. } { split; [reflexivity|repeat constructor]. }
  intros g G. destruct (grid_value_ok _ _ _ _ _ _ _ G) as (E1 & E2 & E3 & E4 & E5 & E6).
  apply find_neighbors_gpu_raw with (eps := 1#1000) (D := 2%nat) (rows := exN_rows) (ids := exN_ids) (B := 2%nat) (cells := bcast 2 [1#1]) (ceps := 1#1000) (crows := exN_centers) (cids := exN_cids) (CB := 2%nat);
    [exact Ha|discriminate|exists 8%nat; reflexivity|unfold supported; lia|discriminate|exact G|exact I2|discriminate|repeat constructor|reflexivity|specialize (Ha KScan); cbn; lia|right|].
  { intros s Hs. rewrite E1, E2, E3, E5, E6. clear G E1 E2 E3 E4 E5 E6. change (length exN_cids) with 5%nat in Hs.
    destruct s as [|[|[|[|[|s]]]]]; try (exfalso; lia); vm_compute; lia. }
  intros A HA. rewrite E1, E2, E3, E5, E6 in HA. cbn [length exN_cids seq map].
  pose proof (HA 0%nat ltac:(cbn; lia)) as H0. pose proof (HA 1%nat ltac:(cbn; lia)) as H1. pose proof (HA 2%nat ltac:(cbn; lia)) as H2.
  pose proof (HA 3%nat ltac:(cbn; lia)) as H3. pose proof (HA 4%nat ltac:(cbn; lia)) as H4. clear HA E1 E2 E3 E4 E5 E6.
  vm_compute in H0, H1, H2, H3, H4. apply Permutation_sym in H0, H1, H2, H3, H4.
  apply Permutation_length_1_inv in H0, H1, H4. apply Permutation_nil in H2, H3. rewrite H0, H1, H2, H3, H4. split; reflexivity.
Qed.
