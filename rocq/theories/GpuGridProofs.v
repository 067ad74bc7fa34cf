(** Proofs of the properties of the CUDA grid operations (C39, C40). The
    statements are copied verbatim into PropertiesGpuGrid.v. *)
From Coq Require Import List Arith ZArith QArith Qround Lia Lqa Bool Permutation Sorted.
From Verif Require Import Tensor TensorFacts Spec PointCloud SpecCloud History PointCloudFacts QFacts
  CloudProofs Grid SpecGrid GridFacts GridProofs Cuda CudaFacts GpuGrid GpuGridFacts.
Import ListNotations.
Local Open Scope Z_scope.

Lemma raw_cell_nonneg eps D rows ids cells i d : (0 <= eps)%Q -> length rows = length ids -> (i < length ids)%nat -> (d < D)%nat ->
  (0 < coord cells d)%Q -> 0 <= raw_cell (lo_at eps D rows ids i) cells (nth i rows []) d.
Proof.
  intros He HL Hi Hd Hc. unfold raw_cell. apply Qfloor_ge_iff. apply div_ge_iff; [auto|].
  destruct (lo_corner eps D rows ids HL (nth i ids 0%nat) ltac:(apply nth_In; auto) d Hd) as [L _].
  specialize (L i Hi eq_refl). unfold lo_at, coord, xc in *. change (inject_Z 0) with 0%Q. lra.
Qed.

(** C39. For every cloud and every schedule, the keys computed on the GPU are
    the row-major numbers of batch element and cell, where the cell is the one
    containing the point or, for a point on the far boundary of the grid, the
    last one; keys are in [[0, batch_size * number of cells)], and are equal
    exactly for points of the same element in the same cell. There is no limit
    of 32 bits. *)
Lemma C39_keys_proof :
  forall active warp eps D rows ids B cs p,
    active <> 0%nat -> warp <> 0%nat -> (2 <= D <= 6)%nat -> ids <> [] ->
    cloud GPU eps D rows ids B p -> valid_sizes D cs -> (0 <= eps)%Q -> (eps <= flt_max)%Q ->
    mk_grid_gpu active warp eps p cs (fun g =>
      length (gnc g) = D /\ length (gkeys g) = length ids /\
      (forall d, (d < D)%nat -> cells_needed eps (all_dims D cs) rows ids d (nth d (gnc g) 0)) /\
      exists lo, (forall b, In b ids -> lower_corner D eps rows ids b (lo b)) /\
      let c i d := Z.min (cell (lo (nth i ids 0%nat)) (all_dims D cs) (nth i rows []) d) (nth d (gnc g) 0 - 1) in
      forall i, (i < length ids)%nat ->
        (forall d, (d < D)%nat -> 0 <= c i d) /\
        nth i (gkeys g) 0 = Z.of_nat (nth i ids 0%nat) * product (gnc g)
            + total (map (fun d => c i d * product (skipn (S d) (gnc g))) (seq 0 D)) /\
        0 <= nth i (gkeys g) 0 < Z.of_nat B * product (gnc g) /\
        forall j, (j < length ids)%nat ->
          (nth i (gkeys g) 0 = nth j (gkeys g) 0 <->
           nth i ids 0%nat = nth j ids 0%nat /\ forall d, (d < D)%nat -> c i d = c j d)).
Proof.
  intros active warp eps D rows ids B cs p Ha Hw HD Hne Hc Hv H0 Hm. apply cloud_is in Hc.
  change (all_dims D cs) with (bcast D cs).
  eapply mk_grid_gpu_ok; eauto. intros g G.
  pose proof (gg_len _ _ _ _ _ _ _ G) as HL. pose proof (gg_nc_length _ _ _ _ _ _ _ G) as Lnc.
  pose proof (ic_ids _ _ _ _ _ _ _ (gg_cloud _ _ _ _ _ _ _ G)) as HB.
  split; [auto|]. split; [eapply gg_keys_length; exact G|]. split.
  { intros d Hd. rewrite (gg_nc _ _ _ _ _ _ _ G).
    eapply num_cells_needed; eauto; first [exact (gg_min _ _ _ _ _ _ _ G)
      | exact (gg_max _ _ _ _ _ _ _ G) | exact (gg_cells_pos _ _ _ _ _ _ _ G)]. }
  exists (lo_of eps D rows ids). split; [intros b Hb; apply lo_corner; auto|]. cbv zeta.
  set (c := fun i d => Z.min (cell (lo_of eps D rows ids (nth i ids 0%nat)) (bcast D cs) (nth i rows []) d) (nth d (gnc g) 0 - 1)).
  assert (Ec : forall i d, (i < length ids)%nat -> (d < D)%nat -> gcell eps D rows ids (bcast D cs) (gnc g) i d = c i d).
  { intros i d Hi Hd. unfold gcell, c. rewrite Z.max_l; [reflexivity|].
    apply raw_cell_nonneg; auto. apply (gg_cells_pos _ _ _ _ _ _ _ G d Hd). }
  assert (Em : forall i, (i < length ids)%nat -> map (gcell eps D rows ids (bcast D cs) (gnc g) i) (seq 0 D) = map (c i) (seq 0 D)).
  { intros i Hi. apply map_ext_in. intros d Hd. apply in_seq in Hd. apply Ec; lia. }
  assert (Ek : forall i, (i < length ids)%nat -> nth i (gkeys g) 0 = Z.of_nat (nth i ids 0%nat) * zprod (gnc g) + radix (gnc g) (map (c i) (seq 0 D))).
  { intros i Hi. rewrite (gg_key _ _ _ _ _ _ _ G i Hi), Em by auto. reflexivity. }
  assert (Ein : forall i, (i < length ids)%nat -> in_cells (gnc g) (map (c i) (seq 0 D))).
  { intros i Hi. rewrite <- Em by auto. apply (gg_cells_in _ _ _ _ _ _ _ G). }
  intros i Hi. split; [|split; [|split]].
  - intros d Hd. rewrite <- Ec by auto. apply (gg_cell_range _ _ _ _ _ _ _ G); auto.
  - rewrite (Ek i Hi). f_equal. rewrite <- radix_sum by (now rewrite map_length, seq_length).
    rewrite Lnc. unfold zsum, total. f_equal. apply map_ext_in.
    intros d Hd. apply in_seq in Hd. rewrite nth_map_seq by lia. reflexivity.
  - exact (gg_key_range _ _ _ _ _ _ _ G i Hi).
  - intros j Hj. rewrite (Ek i Hi), (Ek j Hj).
    pose proof (radix_range _ _ (Ein i Hi)). pose proof (radix_range _ _ (Ein j Hj)). split.
    + intros E. assert (Hb : nth i ids 0%nat = nth j ids 0%nat) by nia. split; [exact Hb|].
      rewrite Hb in E. assert (Hr : radix (gnc g) (map (c i) (seq 0 D)) = radix (gnc g) (map (c j) (seq 0 D))) by lia.
      apply radix_inj in Hr; [|now apply Ein|now apply Ein].
      intros d Hd. change (c i d = c j d). rewrite <- (nth_map_seq (c i) D d 0 Hd), <- (nth_map_seq (c j) D d 0 Hd). now rewrite Hr.
    + intros [-> Hcc]. do 2 f_equal. apply map_ext_in. intros d Hd. apply in_seq in Hd. apply Hcc. lia.
Qed.

Example C39_keys_ex_proof :
  exists p, cloud GPU 0 2 [[0#1;2#1];[1#1;0#1];[3#2;1#1]] [0;0;0]%nat 1 p /\ valid_sizes 2 [1#1] /\
    mk_grid_gpu 1 32 0 p [1#1] (fun g => gnc g = [2; 2] /\ gkeys g = [1; 2; 3]).
Proof.
  set (rows := [[0#1;2#1];[1#1;0#1];[3#2;1#1]] : list point).
  destruct (init (P2 2 rows) (Some [0;0;0]%nat) None None) as [p|] eqn:E; [|discriminate].
  assert (Hc : cloud GPU 0 2 rows [0;0;0]%nat 1 p).
  { eapply cloud_new; [exact E|..]; try (vm_compute in E; inversion E; subst; reflexivity); try reflexivity;
    repeat constructor. }
  assert (Hv : valid_sizes 2 [1#1]) by (split; [reflexivity|repeat constructor]).
  exists p. split; [exact Hc|]. split; [exact Hv|].
  apply (mk_grid_gpu_ok 1 32 0 2 rows [0;0;0]%nat 1 p [1#1]); [lia|lia|unfold supported; lia|discriminate|apply cloud_is; exact Hc|exact Hv|].
  intros g' G.
  assert (Hn : gnc g' = [2;2]).
  { rewrite (gg_nc _ _ _ _ _ _ _ G). unfold num_cells. rewrite (gg_min _ _ _ _ _ _ _ G), (gg_max _ _ _ _ _ _ _ G). vm_compute. reflexivity. }
  split; [exact Hn|]. rewrite (gg_keys _ _ _ _ _ _ _ G), Hn. vm_compute. reflexivity.
Qed.

(** C39. If all points lie inside the grid and the number of cells over the
    batch fits into 32 bit, the grid built on the GPU is the grid built by
    the TensorFlow code. *)
Lemma C39_agree_partial_proof :
  forall active warp eps D rows ids B cs p,
    active <> 0%nat -> warp <> 0%nat -> (2 <= D <= 6)%nat -> ids <> [] ->
    cloud GPU eps D rows ids B p -> valid_sizes D cs -> (0 <= eps)%Q ->
    fits eps D (all_dims D cs) rows ids ->
    exists g, mk_grid GPU eps p cs = Ok g /\
      (Z.of_nat B * product (gnc g) <= 2 ^ 31 ->
       mk_grid_gpu active warp eps p cs (fun g' => g' = g)).
Proof.
  intros active warp eps D rows ids B cs p Ha Hw HD Hne Hc Hv H0 Hf. apply cloud_is in Hc.
  change (all_dims D cs) with (bcast D cs) in *.
  destruct (mk_grid_ok GPU eps D rows ids B p cs Hc Hv) as (g & E & G & _).
  exists g. split; [exact E|]. intros Ho.
  pose proof (valid_sizes_pos D cs Hv) as [Hl Hp]. destruct Hv as [_ HF].
  unfold mk_grid_gpu. unfold mk_grid in E. rewrite (ic_dim _ _ _ _ _ _ _ Hc) in *.
  destruct (get_aabb_cloud GPU eps D rows ids B p Hc) as (p' & a & Ea & Hc' & Hmin & Hmax).
  rewrite Ea in *. cbn [bind] in E. rewrite Hl, Nat.eqb_refl in E. cbn [negb] in E.
  exists a. split; [auto|]. split; [auto|]. split; [exact HF|]. cbv zeta in *.
  destruct (negb (forallb (fun c => negb (Qle_bool c 0)) (bcast D cs))); [discriminate|].
  pose proof Hc' as [H1 H2 H3 H4 H5 H6 H7 H8]. rewrite H1, H2 in *.
  apply (compute_keys_gpu_ok active warp eps D rows ids B); auto.
  destruct (compute_keys D a (num_cells D a (bcast D cs)) (bcast D cs) rows ids) as [keys|] eqn:Ek; [|discriminate].
  cbn [bind] in E.
  destruct (gather keys (argsort_desc keys)) as [sk|] eqn:E1; [|discriminate]. cbn [bind] in E.
  destruct (gather rows (argsort_desc keys)) as [sp|] eqn:E2; [|discriminate]. cbn [bind] in E.
  destruct (gather ids (argsort_desc keys)) as [sb|] eqn:E3; [|discriminate]. cbn [bind] in E.
  injection E as <-. cbn [gnc] in *.
  match goal with |- context [gather ?k (argsort_desc ?k)] => replace k with keys end.
  - exists sk, sp, sb. auto.
  - pose proof (keys_length _ _ _ _ _ _ _ _ G) as Lk. cbn [gkeys] in Lk.
    apply list_eq_nth; [rewrite map_length, seq_length; auto|]. intros i x Hi.
    rewrite (nth_indep _ x 0) by auto. rewrite (nth_indep _ x 0) by (rewrite map_length, seq_length; lia).
    rewrite nth_map_seq by lia.
    pose proof (key_value _ _ _ _ _ _ _ _ H0 G Hf Ho i ltac:(lia)) as K. cbn [gkeys gnc] in K. rewrite K. do 2 f_equal.
    apply map_ext_in. intros d Hd. apply in_seq in Hd.
    pose proof (cell_at_range _ _ _ _ _ _ _ _ H0 G Hf i d ltac:(lia) ltac:(lia)) as R. cbn [gnc] in R.
    unfold gcell, cell_at in *. lia.
Qed.

Example C39_agree_partial_ex_proof :
  exists p g, init (P2 3 ex_pts) (Some ex_bids) None None = Ok p /\ mk_grid GPU 0 p [4#3] = Ok g /\
    ~ boundary_case 3 (all_dims 3 [4#3]) ex_pts ex_bids /\
    gkeys g = [0; 2; 9; 2; 12] /\ mk_grid_gpu 2 32 0 p [4#3] (fun g' => g' = g).
Proof.
  assert (NB : ~ boundary_case 3 (all_dims 3 [4#3]) ex_pts ex_bids).
  { destruct C11_grid_keys_partial_ex_proof as (_ & _ & _ & _ & H & _). exact H. }
  destruct (init (P2 3 ex_pts) (Some ex_bids) None None) as [p|] eqn:E; [|discriminate].
  assert (Hc : cloud GPU 0 3 ex_pts ex_bids 2 p).
  { eapply cloud_new; [exact E|..]; try (vm_compute in E; inversion E; subst; reflexivity); try reflexivity;
    repeat constructor. }
  destruct (C39_agree_partial_proof 2 32 0 3 ex_pts ex_bids 2 [4#3] p) as (g & Eg & Hg); auto; try lia; try discriminate.
  { split; [reflexivity|repeat constructor]. } { right. split; [reflexivity|exact NB]. }
  exists p, g. split; [auto|]. split; [auto|]. split; [auto|].
  assert (Gv : gkeys g = [0; 2; 9; 2; 12] /\ gnc g = [3; 2; 2]).
  { clear - E Eg. vm_compute in E. injection E as <-. vm_compute in Eg. injection Eg as <-. split; reflexivity. }
  destruct Gv as [Gk Gn]. split; [auto|]. apply Hg. rewrite Gn. vm_compute. discriminate.
Qed.

Lemma compute_keys_gpu_both active warp D a nc cells ps ids (P Q : list Z -> Prop) :
  compute_keys_gpu active warp D a nc cells ps ids P -> compute_keys_gpu active warp D a nc cells ps ids Q ->
  exists k, P k /\ Q k.
Proof.
  intros (_ & _ & _ & _ & _ & H) (_ & _ & _ & _ & _ & H').
  destruct (H (repeat 0 (length ps)) (repeat_length _ _)) as [_ R]. destruct (H' (repeat 0 (length ps)) (repeat_length _ _)) as [_ R'].
  eapply every_run_both; eauto.
Qed.
Lemma mk_grid_gpu_both active warp eps p cs (P Q : grid -> Prop) :
  mk_grid_gpu active warp eps p cs P -> mk_grid_gpu active warp eps p cs Q -> exists g, P g /\ Q g.
Proof.
  unfold mk_grid_gpu. destruct (get_aabb GPU eps p) as [p' ra]. intros (a & E & _ & _ & H) (a' & E' & _ & _ & H').
  assert (a' = a) by congruence. subst a'. cbv zeta in H, H'.
  destruct (compute_keys_gpu_both _ _ _ _ _ _ _ _ _ _ H H') as (k & (sk & sp & sb & E1 & E2 & E3 & HP) & (sk' & sp' & sb' & E1' & E2' & E3' & HQ)).
  cbv zeta in *. rewrite E1 in E1'. rewrite E2 in E2'. rewrite E3 in E3'. injection E1' as <-. injection E2' as <-. injection E3' as <-. eauto.
Qed.

(** C39, boundary. In the boundary case without effective margin the two
    implementations compute different keys. *)
Lemma C39_boundary_refuted_proof :
  exists (p : pc) (g : grid) (rows : list point) (ids : list nat) (cs : list Q),
    cloud GPU 0 2 rows ids 1 p /\ valid_sizes 2 cs /\ mk_grid GPU 0 p cs = Ok g /\
    mk_grid_gpu 1 32 0 p cs (fun g' => gkeys g' <> gkeys g) /\
    ~ mk_grid_gpu 1 32 0 p cs (fun g' => gkeys g' = gkeys g).
Proof.
  set (rows := [[0#1;2#1];[1#1;0#1];[3#2;1#1]] : list point).
  destruct (init (P2 2 rows) (Some [0;0;0]%nat) None None) as [p|] eqn:E; [|discriminate].
  assert (Hc : cloud GPU 0 2 rows [0;0;0]%nat 1 p).
  { eapply cloud_new; [exact E|..]; try (vm_compute in E; inversion E; subst; reflexivity); try reflexivity;
    repeat constructor. }
  assert (Hv : valid_sizes 2 [1#1]) by (split; [reflexivity|repeat constructor]).
  destruct (mk_grid GPU 0 p [1#1]) as [g|] eqn:Eg;
    [|vm_compute in E; inversion E; subst p; vm_compute in Eg; discriminate].
  exists p, g, rows, [0;0;0]%nat, [1#1].
  assert (H : mk_grid_gpu 1 32 0 p [1#1] (fun g' => gkeys g' <> gkeys g)).
  { apply (mk_grid_gpu_ok 1 32 0 2 rows [0;0;0]%nat 1 p [1#1]); [lia|lia|unfold supported; lia|discriminate|apply cloud_is; exact Hc|exact Hv|].
    intros g' G.
    assert (Hn : gnc g' = [2;2]).
    { rewrite (gg_nc _ _ _ _ _ _ _ G). unfold num_cells. rewrite (gg_min _ _ _ _ _ _ _ G), (gg_max _ _ _ _ _ _ _ G). vm_compute. reflexivity. }
    assert (Hk : gkeys g' = [1;2;3]).
    { rewrite (gg_keys _ _ _ _ _ _ _ G), Hn. vm_compute. reflexivity. }
    rewrite Hk.
    clear - E Eg. vm_compute in E. injection E as <-. vm_compute in Eg. injection Eg as <-. cbn. discriminate. }
  repeat split; auto; try apply Hv. intros H'. destruct (mk_grid_gpu_both _ _ _ _ _ _ _ H H') as (g' & N & N'). auto.
Qed.

(** C39, overflow. Beyond 32 bit the keys differ, whatever the margin. *)
Lemma C39_overflow_refuted_proof :
  exists (p : pc) (g : grid) (rows : list point) (ids : list nat) (cs : list Q) (eps : Q),
    (0 < eps)%Q /\ cloud GPU eps 2 rows ids 2 p /\ valid_sizes 2 cs /\ mk_grid GPU eps p cs = Ok g /\
    mk_grid_gpu 1 32 eps p cs (fun g' => gkeys g' <> gkeys g) /\
    ~ mk_grid_gpu 1 32 eps p cs (fun g' => gkeys g' = gkeys g).
Proof.
  set (rows := [[0#1;0#1];[65535#1;65535#1];[0#1;0#1]] : list point).
  destruct (init (P2 2 rows) (Some [0;0;1]%nat) None None) as [p|] eqn:E; [|discriminate].
  assert (Hc : cloud GPU (1#4) 2 rows [0;0;1]%nat 2 p).
  { eapply cloud_new; [exact E|..]; try (vm_compute in E; inversion E; subst; reflexivity); try reflexivity;
    repeat constructor. }
  assert (Hv : valid_sizes 2 [1#1]) by (split; [reflexivity|repeat constructor]).
  destruct (mk_grid GPU (1#4) p [1#1]) as [g|] eqn:Eg;
    [|vm_compute in E; inversion E; subst p; vm_compute in Eg; discriminate].
  exists p, g, rows, [0;0;1]%nat, [1#1], (1#4).
  assert (H : mk_grid_gpu 1 32 (1#4) p [1#1] (fun g' => gkeys g' <> gkeys g)).
  { apply (mk_grid_gpu_ok 1 32 (1#4) 2 rows [0;0;1]%nat 2 p [1#1]); [lia|lia|unfold supported; lia|discriminate|apply cloud_is; exact Hc|exact Hv|].
    intros g' G.
    assert (Hn : gnc g' = [65536;65536]).
    { rewrite (gg_nc _ _ _ _ _ _ _ G). unfold num_cells. rewrite (gg_min _ _ _ _ _ _ _ G), (gg_max _ _ _ _ _ _ _ G). vm_compute. reflexivity. }
    assert (Hk : gkeys g' = [0;4294967295;4294967296]).
    { rewrite (gg_keys _ _ _ _ _ _ _ G), Hn. vm_compute. reflexivity. }
    rewrite Hk.
    clear - E Eg. vm_compute in E. injection E as <-. vm_compute in Eg. injection Eg as <-. cbn. discriminate. }
  split; [reflexivity|]. repeat split; auto; try apply Hv. intros H'. destruct (mk_grid_gpu_both _ _ _ _ _ _ _ H H') as (g' & N & N'). auto.
Qed.

(** C39. Decoding a key gives the batch element and the cell, and the entry of
    the access structure found from the key is the one found from the cell. *)
Lemma C39_decode_proof :
  forall (nc cs : list Z) (b : nat),
    (2 <= length nc)%nat -> length cs = length nc ->
    (forall d, (d < length nc)%nat -> 0 <= nth d cs 0 < nth d nc 0) ->
    let key := Z.of_nat b * product nc + total (map (fun d => nth d cs 0 * product (skipn (S d) nc)) (seq 0 (length nc))) in
    gpu_key nc cs b = key /\ gpu_cell_from_key nc key = (Z.of_nat b, cs) /\
    gpu_ds_of_key nc key = gpu_ds_of_cell nc (Z.of_nat b) cs.
Proof.
  intros nc cs b H2 HL Hr key.
  assert (Hin : in_cells nc cs).
  { assert (E : cs = map (fun d => nth d cs 0) (seq 0 (length nc))) by (rewrite <- HL; symmetry; apply TensorFacts.map_nth_seq).
    assert (Hs : in_cells nc (map (fun d => nth d cs 0) (seq 0 (length nc)))) by (apply in_cells_seq; auto).
    rewrite <- E in Hs. exact Hs. }
  assert (Hp : forall x, In x nc -> 1 <= x).
  { intros x Hx. apply In_nth with (d := 0) in Hx. destruct Hx as (d & Hd & <-). specialize (Hr d Hd). lia. }
  assert (Ek : key = Z.of_nat b * zprod nc + radix nc cs).
  { unfold key. rewrite <- radix_sum by auto. reflexivity. }
  rewrite Ek. split; [apply gpu_key_radix; auto|]. split; [apply gpu_decode; auto; lia|].
  destruct nc as [|n0 [|n1 rest]]; cbn in H2; try lia. destruct cs as [|c0 [|c1 cs]]; cbn in HL; try lia.
  rewrite gpu_ds_of_key_cell by (auto; lia). unfold gpu_ds_of_cell. cbn [nth]. ring.
Qed.

Example C39_decode_ex_proof :
  gpu_key [3;2;4] [2;1;3] 5 = 143 /\ gpu_cell_from_key [3;2;4] 143 = (5, [2;1;3]) /\ gpu_ds_of_key [3;2;4] 143 = 35.
Proof. repeat split. Qed.

(** C39, empty cloud. Without points no block is launched and the operation
    ends the process. *)
Lemma C39_empty_refuted_proof :
  forall active warp D a nc cells (P : list Z -> Prop), ~ compute_keys_gpu active warp D a nc cells [] [] P.
Proof.
  intros active warp D a nc cells P (_ & _ & _ & _ & _ & H). destruct (H [] eq_refl) as [N _]. apply N. apply num_blocks_zero.
Qed.

(** * C40 *)
Lemma ds_entry_fold (f : nat -> Z) n S d : Z.of_nat n < int32_max ->
  (forall j k, (j < k)%nat -> (k < n)%nat -> f k <= f j) -> (forall j, (j < n)%nat -> 0 <= f j < Z.of_nat S) ->
  ds_entry (Z.of_nat n)
      (fold_right Z.min int32_max (map Z.of_nat (filter (fun j => f j =? Z.of_nat d) (seq 0 n))),
       fold_right Z.max int32_min (map Z.succ (map Z.of_nat (filter (fun j => f j =? Z.of_nat d) (seq 0 n))))) = ds_fold f n d n.
Proof.
  intros Hn Hd Hr. destruct (ds_fold_spec f n S Hd Hr d) as (F1 & F2 & F3 & F4).
  destruct (ds_entry_spec f n (Z.of_nat d) Hn Hd) as (a & e & E & A1 & A2 & A3).
  destruct (Exists_dec (fun j => f j = Z.of_nat d) (seq 0 n) (fun j => Z.eq_dec _ _)) as [X|X].
  - rewrite E. apply Exists_exists in X. destruct X as (j0 & Hj0 & Ej0). apply in_seq in Hj0.
    destruct (ds_fold f n d n) as [a' e']. cbn [fst snd] in *.
    pose proof (proj2 (A3 j0 ltac:(lia)) Ej0). pose proof (proj2 (F1 j0 ltac:(lia)) Ej0).
    assert (Ha : forall j, (j < n)%nat -> (a <= Z.of_nat j < e <-> a' <= Z.of_nat j < e')) by (intros j Hj; rewrite A3, F1 by auto; tauto).
    pose proof (Ha (Z.to_nat a) ltac:(lia)). pose proof (Ha (Z.to_nat a') ltac:(lia)).
    pose proof (Ha (Z.to_nat (e - 1)) ltac:(lia)). pose proof (Ha (Z.to_nat (e' - 1)) ltac:(lia)).
    f_equal; lia.
  - assert (Hno : forall j, (j < n)%nat -> f j <> Z.of_nat d).
    { intros j Hj Ej. apply X. apply Exists_exists. exists j. split; [apply in_seq; lia|auto]. }
    rewrite (F2 Hno). assert (El : filter (fun j => f j =? Z.of_nat d) (seq 0 n) = []).
    { destruct (filter (fun j => f j =? Z.of_nat d) (seq 0 n)) as [|j l] eqn:Ef; [auto|].
      assert (I : In j (filter (fun j => f j =? Z.of_nat d) (seq 0 n))) by (rewrite Ef; left; auto).
      apply filter_In in I. rewrite in_seq, Z.eqb_eq in I. exfalso. apply (Hno j); tauto. }
    rewrite El. cbn [map fold_right]. unfold ds_entry. change (int32_max <? 0) with false. cbv iota beta.
    destruct (Z.ltb_spec (Z.of_nat n) int32_max); [reflexivity|lia].
Qed.

Lemma build_grid_ds_fold dev keys n0 n1 rest B :
  1 <= n0 -> 1 <= n1 -> 1 <= zprod rest ->
  Z.of_nat B * zprod (n0 :: n1 :: rest) <= 2 ^ 31 ->
  Z.of_nat (length keys) < int32_max ->
  (forall j, (j < length keys)%nat -> 0 <= nth j keys 0 < Z.of_nat B * zprod (n0 :: n1 :: rest)) ->
  (forall j k, (j < k)%nat -> (k < length keys)%nat -> nth k keys 0 <= nth j keys 0) ->
  build_grid_ds dev keys (n0 :: n1 :: rest) B = Ok (GridDS B n0 n1
    (map (fun d => ds_fold (fun j => gpu_ds_of_key (n0 :: n1 :: rest) (nth j keys 0)) (length keys) d (length keys))
         (seq 0 (Z.to_nat (Z.of_nat B * n0 * n1))))).
Proof.
  rewrite !zprod_cons. intros H0 H1 HR Hover HN Hr Hs. set (N := length keys) in *. set (R := zprod rest) in *.
  assert (HR' : match rest with [] => 1 | _ => zprod rest end = R) by (destruct rest; reflexivity).
  set (f := fun j => gpu_ds_of_key (n0 :: n1 :: rest) (nth j keys 0)).
  assert (Ef : forall j, (j < N)%nat -> f j = nth j keys 0 / R).
  { intros j Hj. unfold f, gpu_ds_of_key. cbn [skipn]. specialize (Hr j Hj). apply Z.quot_div_nonneg; fold R; lia. }
  assert (Hdi : map (fun k => k / R) (map wrap32 keys) = map f (seq 0 N)).
  { rewrite map_map. rewrite (nth_map_seq' keys 0) at 1. fold N. rewrite map_map. apply map_ext_in.
    intros j Hj. apply in_seq in Hj. rewrite Ef by lia. rewrite wrap32_id; [reflexivity|]. specialize (Hr j ltac:(lia)). lia. }
  assert (Hf : forall j, (j < N)%nat -> 0 <= f j < Z.of_nat B * n0 * n1).
  { intros j Hj. specialize (Hr j Hj). rewrite (Ef j Hj). split; [apply Z.div_pos; lia|].
    apply Z.div_lt_upper_bound; lia. }
  assert (Hm : forall j k, (j < k)%nat -> (k < N)%nat -> f k <= f j).
  { intros j k Hjk Hk. rewrite (Ef j), (Ef k) by lia. apply Z.div_le_mono; [lia|]. now apply Hs. }
  assert (Hchk : (match dev with CPU => negb (forallb (fun i => i <? Z.of_nat B * n0 * n1) (map f (seq 0 N)))
                    | GPU => false end) = false).
  { destruct dev; [|reflexivity]. apply negb_false_iff, forallb_forall. intros z Hz.
    apply in_map_iff in Hz as (j & <- & Hj). apply in_seq in Hj. apply Z.ltb_lt. apply Hf. lia. }
  unfold build_grid_ds. rewrite HR', Hdi. unfold zseg_reduce. fold N. rewrite Hchk. cbn [bind]. do 2 f_equal.
  rewrite combine_map_map, map_map. apply map_ext_in. intros d _.
  rewrite map_map. rewrite !zsegment_seq. rewrite <- (map_map Z.of_nat Z.succ).
  assert (Hf' : forall j, (j < N)%nat -> 0 <= f j < Z.of_nat (Z.to_nat (Z.of_nat B * n0 * n1))).
  { intros j Hj. rewrite Z2Nat.id by nia. auto. }
  exact (ds_entry_fold f N _ d HN Hm Hf').
Qed.

(** C40. For every descending list of valid keys, every device size and every
    schedule of the threads, the access structure built on the GPU is the one
    built by the TensorFlow code. *)
Lemma C40_schedule_independent_proof :
  forall active warp dev keys nc B,
    active <> 0%nat -> warp <> 0%nat -> (2 <= length nc <= 6)%nat -> (0 < B)%nat -> keys <> [] ->
    Forall (fun n => 1 <= n) nc ->
    (forall j, (j < length keys)%nat -> 0 <= nth j keys 0 < Z.of_nat B * product nc) ->
    (forall j k, (j < k)%nat -> (k < length keys)%nat -> nth k keys 0 <= nth j keys 0) ->
    Z.of_nat B * product nc <= 2 ^ 31 -> Z.of_nat (length keys) < 2 ^ 31 - 1 ->
    exists ds, build_grid_ds dev keys nc B = Ok ds /\
      build_grid_ds_gpu active warp keys nc B (fun r => r = dsranges ds).
Proof.
  intros active warp dev keys nc B Ha Hw HD HB Hne Hp Hr Hs Ho HN. rewrite Forall_forall in Hp.
  destruct nc as [|n0 [|n1 rest]]; cbn in HD; try lia. change product with zprod in *.
  eexists. split.
  - apply build_grid_ds_fold; auto; [apply Hp; left; auto|apply Hp; right; left; auto|apply zprod_pos; intros; apply Hp; right; right; auto].
  - apply build_grid_ds_runs; auto.
Qed.

Lemma ex_ds active warp : active <> 0%nat -> warp <> 0%nat ->
  exists ds, build_grid_ds CPU [12; 9; 2; 2; 0] [3; 2; 2] 2 = Ok ds /\
    build_grid_ds_gpu active warp [12; 9; 2; 2; 0] [3; 2; 2] 2 (fun r => r = dsranges ds).
Proof.
  intros Ha Hw. apply C40_schedule_independent_proof; auto; try lia; try discriminate; try (cbn; lia).
  - repeat constructor; lia.
  - intros j Hj. change (product [3; 2; 2]) with 12. do 5 (destruct j as [|j]; [cbn; lia|]). cbn in Hj. lia.
  - intros j k Hjk Hk. do 5 (destruct k as [|k]; [do 5 (destruct j as [|j]; [cbn; lia|]); lia|]). cbn in Hk. lia.
Qed.
Example C40_schedule_independent_ex_proof :
  exists ds, build_grid_ds CPU [12; 9; 2; 2; 0] [3; 2; 2] 2 = Ok ds /\
    build_grid_ds_gpu 4 32 [12; 9; 2; 2; 0] [3; 2; 2] 2 (fun r => r = dsranges ds) /\
    dsranges ds = [(4, 5); (2, 4); (0, 0); (0, 0); (1, 2); (0, 0); (0, 1); (0, 0); (0, 0); (0, 0); (0, 0); (0, 0)].
Proof.
  destruct (ex_ds 4 32) as (ds & E & R); try lia.
  exists ds. split; [auto|]. split; [auto|]. vm_compute in E. injection E as <-. reflexivity.
Qed.

(** C40. On the GPU there is no 32 bit limit: for the grid of every cloud and
    every schedule, the structure gives for every batch element and every pair
    of first cell coordinates the range of exactly the sorted points of that
    element with these (clamped) cell coordinates. *)
Lemma C40_access_proof :
  forall active warp eps D rows ids B cs p,
    active <> 0%nat -> warp <> 0%nat -> (2 <= D <= 6)%nat -> ids <> [] ->
    cloud GPU eps D rows ids B p -> valid_sizes D cs -> (0 <= eps)%Q ->
    mk_grid_gpu active warp eps p cs (fun g =>
      get_DS_gpu active warp g (fun ds =>
        dsB ds = B /\ ds0 ds = nth 0 (gnc g) 0 /\ ds1 ds = nth 1 (gnc g) 0 /\
        exists lo, (forall b, In b ids -> lower_corner D eps rows ids b (lo b)) /\
        let c j d := Z.min (cell (lo (nth j (gsbids g) 0%nat)) (all_dims D cs) (nth j (gspts g) []) d) (nth d (gnc g) 0 - 1) in
        forall b x y, (b < B)%nat -> 0 <= x < nth 0 (gnc g) 0 -> 0 <= y < nth 1 (gnc g) 0 ->
          exists s e, ds_lookup ds b x y = Some (s, e) /\ 0 <= s <= e /\ e <= Z.of_nat (length ids) /\
            forall j, (j < length ids)%nat ->
              (s <= Z.of_nat j < e <-> nth j (gsbids g) 0%nat = b /\ c j 0%nat = x /\ c j 1%nat = y))).
Proof.
  intros active warp eps D rows ids B cs p Ha Hw HD Hne Hc Hv H0. apply cloud_is in Hc.
  change (all_dims D cs) with (bcast D cs).
  eapply mk_grid_gpu_ok; eauto. intros g G.
  pose proof (gg_len _ _ _ _ _ _ _ G) as HL. pose proof (gg_nc_length _ _ _ _ _ _ _ G) as Lnc.
  pose proof (gg_skeys_length _ _ _ _ _ _ _ G) as Lsk.
  unfold get_DS_gpu. rewrite (gg_ds _ _ _ _ _ _ _ G).
  rewrite (ic_bsize _ _ _ _ _ _ _ (gg_cloud _ _ _ _ _ _ _ G)).
  assert (Hb0 : (0 < B)%nat).
  { destruct ids as [|b0 ids']; [congruence|]. pose proof (gg_id_lt _ _ _ _ _ _ _ G 0%nat ltac:(cbn; lia)). lia. }
  assert (Hkr : forall j, (j < length (gskeys g))%nat -> 0 <= nth j (gskeys g) 0 < Z.of_nat B * zprod (gnc g)).
  { intros j Hj. rewrite Lsk in Hj. rewrite (gg_skeys_nth _ _ _ _ _ _ _ G j Hj). apply (gg_key_range _ _ _ _ _ _ _ G). apply (gg_sidx_lt _ _ _ _ _ _ _ G). auto. }
  assert (Hks : forall j k, (j < k)%nat -> (k < length (gskeys g))%nat -> nth k (gskeys g) 0 <= nth j (gskeys g) 0).
  { intros j k Hjk Hk. rewrite Lsk in Hk. apply (gg_sorted _ _ _ _ _ _ _ G); auto. }
  apply build_grid_ds_runs; auto.
  { unfold supported. lia. } { intros E. rewrite E in Lsk. destruct ids; [congruence|discriminate]. }
  { apply (gg_nc_pos_all _ _ _ _ _ _ _ G). }
  cbn [dsB ds0 ds1]. do 3 (split; [reflexivity|]).
  exists (lo_of eps D rows ids). split; [intros b Hb; apply lo_corner; auto|]. cbv zeta.
  intros b x y Hb Hx Hy. set (f := fun j => gpu_ds_of_key (gnc g) (nth j (gskeys g) 0)). set (n := length (gskeys g)) in *.
  assert (Hnc : exists n0 n1 rest, gnc g = n0 :: n1 :: rest).
  { destruct (gnc g) as [|n0 [|n1 rest]]; cbn in Lnc; try lia. eauto. }
  destruct Hnc as (n0 & n1 & rest & En). rewrite En in *. cbn [nth] in *.
  pose proof (gg_nc_pos_all _ _ _ _ _ _ _ G) as Hp. rewrite En in Hp.
  assert (P0 : 1 <= n0) by (apply Hp; left; auto). assert (P1 : 1 <= n1) by (apply Hp; right; left; auto).
  assert (PR : 1 <= zprod rest) by (apply zprod_pos; intros; apply Hp; right; right; auto).
  assert (Ec : forall j, (j < length ids)%nat -> exists cs', in_cells (n0 :: n1 :: rest)
     (Z.min (cell (lo_of eps D rows ids (nth j (gsbids g) 0%nat)) (bcast D cs) (nth j (gspts g) []) 0) (n0 - 1) ::
      Z.min (cell (lo_of eps D rows ids (nth j (gsbids g) 0%nat)) (bcast D cs) (nth j (gspts g) []) 1) (n1 - 1) :: cs') /\
     nth j (gskeys g) 0 = Z.of_nat (nth j (gsbids g) 0%nat) * zprod (n0 :: n1 :: rest) + radix (n0 :: n1 :: rest)
     (Z.min (cell (lo_of eps D rows ids (nth j (gsbids g) 0%nat)) (bcast D cs) (nth j (gspts g) []) 0) (n0 - 1) ::
      Z.min (cell (lo_of eps D rows ids (nth j (gsbids g) 0%nat)) (bcast D cs) (nth j (gspts g) []) 1) (n1 - 1) :: cs')).
  { intros j Hj. rewrite (gg_skeys_nth _ _ _ _ _ _ _ G j Hj), (gg_spts_nth _ _ _ _ _ _ _ G j Hj), (gg_sbids_nth _ _ _ _ _ _ _ G j Hj).
    pose proof (gg_sidx_lt _ _ _ _ _ _ _ G j Hj) as Hi. set (i := nth j (gsidx g) 0%nat) in *.
    exists (map (gcell eps D rows ids (bcast D cs) (gnc g) i) (seq 2 (D - 2))).
    assert (Em : map (gcell eps D rows ids (bcast D cs) (gnc g) i) (seq 0 D) =
      Z.min (cell (lo_of eps D rows ids (nth i ids 0%nat)) (bcast D cs) (nth i rows []) 0) (n0 - 1) ::
      Z.min (cell (lo_of eps D rows ids (nth i ids 0%nat)) (bcast D cs) (nth i rows []) 1) (n1 - 1) ::
      map (gcell eps D rows ids (bcast D cs) (gnc g) i) (seq 2 (D - 2))).
    { destruct D as [|[|D']]; try lia. cbn [seq map]. replace (S (S D') - 2)%nat with D' by lia. f_equal; [|f_equal].
      - unfold gcell. rewrite En. cbn [nth]. rewrite Z.max_l; [reflexivity|]. apply raw_cell_nonneg; auto; [lia|]. apply (gg_cells_pos _ _ _ _ _ _ _ G); lia.
      - unfold gcell. rewrite En. cbn [nth]. rewrite Z.max_l; [reflexivity|]. apply raw_cell_nonneg; auto; [lia|]. apply (gg_cells_pos _ _ _ _ _ _ _ G); lia. }
    rewrite <- Em. rewrite <- En. split; [apply (gg_cells_in _ _ _ _ _ _ _ G)|]. apply (gg_key _ _ _ _ _ _ _ G i Hi). }
  assert (Hf : forall j, (j < n)%nat -> 0 <= f j < Z.of_nat (Z.to_nat (Z.of_nat B * n0 * n1))).
  { intros j Hj. rewrite Z2Nat.id by nia. specialize (Hkr j Hj). rewrite !zprod_cons in Hkr. unfold f, gpu_ds_of_key. rewrite En. cbn [skipn].
    rewrite Z.quot_div_nonneg by lia. split; [apply Z.div_pos; lia|]. apply Z.div_lt_upper_bound; lia. }
  assert (Hm : forall j k, (j < k)%nat -> (k < n)%nat -> f k <= f j).
  { intros j k Hjk Hk. pose proof (Hkr j ltac:(lia)). pose proof (Hkr k ltac:(lia)). unfold f, gpu_ds_of_key. rewrite En. cbn [skipn]. rewrite !Z.quot_div_nonneg by lia.
    apply Z.div_le_mono; [lia|]. now apply Hks. }
  set (idx := (Z.of_nat b * n0 + x) * n1 + y).
  assert (Hq : 0 <= Z.of_nat b * n0 + x < Z.of_nat B * n0) by nia.
  assert (Hidx : 0 <= idx < Z.of_nat B * n0 * n1).
  { unfold idx. clear - Hq Hy P1. generalize dependent (Z.of_nat b * n0 + x). intros q Hq.
    generalize dependent (Z.of_nat B * n0). intros w Hq. nia. }
  destruct (ds_fold_spec f n _ Hm Hf (Z.to_nat idx)) as (F1 & _ & F3 & F4).
  exists (fst (ds_fold f n (Z.to_nat idx) n)), (snd (ds_fold f n (Z.to_nat idx) n)).
  split; [|split; [exact F3|split; [rewrite <- Lsk; exact F4|]]].
  - unfold ds_lookup. cbn [dsB ds0 ds1 dsranges].
    replace (Nat.ltb b B) with true by (symmetry; apply Nat.ltb_lt; exact Hb).
    replace (0 <=? x) with true by (symmetry; apply Z.leb_le; lia).
    replace (x <? n0) with true by (symmetry; apply Z.ltb_lt; lia).
    replace (0 <=? y) with true by (symmetry; apply Z.leb_le; lia).
    replace (y <? n1) with true by (symmetry; apply Z.ltb_lt; lia).
    cbn [andb]. fold idx. rewrite nth_error_map. rewrite (nth_error_nth' (seq 0 _) _ 0%nat) by (rewrite seq_length; lia).
    rewrite seq_nth by lia. cbn [option_map Nat.add]. rewrite <- surjective_pairing. unfold f. rewrite En. reflexivity.
  - intros j Hj. rewrite (F1 j) by (rewrite Lsk; auto). rewrite Z2Nat.id by lia.
    destruct (Ec j Hj) as (cs' & Ic & Ek).
    set (c0 := Z.min (cell (lo_of eps D rows ids (nth j (gsbids g) 0%nat)) (bcast D cs) (nth j (gspts g) []) 0) (n0 - 1)) in *.
    set (c1 := Z.min (cell (lo_of eps D rows ids (nth j (gsbids g) 0%nat)) (bcast D cs) (nth j (gspts g) []) 1) (n1 - 1)) in *.
    assert (I01 : 0 <= c0 < n0 /\ 0 <= c1 < n1).
    { clear - Ic. inversion Ic as [|? ? ? ? I0 Ic']. inversion Ic'. auto. }
    destruct I01 as [I0 I1].
    assert (Ef : f j = (Z.of_nat (nth j (gsbids g) 0%nat) * n0 + c0) * n1 + c1).
    { unfold f. rewrite Ek, En. apply gpu_ds_of_key_cell; auto; lia. }
    rewrite Ef. unfold idx. clearbody c0 c1. clear - I0 I1 Hx Hy. generalize (nth j (gsbids g) 0%nat). intros b'. split.
    + intros E. assert (E1 : Z.of_nat b' * n0 + c0 = Z.of_nat b * n0 + x /\ c1 = y).
      { generalize dependent (Z.of_nat b' * n0 + c0). generalize dependent (Z.of_nat b * n0 + x). intros u v E. assert (v = u) by nia. lia. }
      destruct E1 as [E1 E2]. assert (Z.of_nat b' = Z.of_nat b) by nia. split; [lia|]. split; nia.
    + intros (-> & -> & ->). reflexivity.
Qed.

Example C40_access_ex_proof :
  exists p g ds, init (P2 3 ex_pts) (Some ex_bids) None None = Ok p /\ mk_grid GPU 0 p [4#3] = Ok g /\
    get_DS_gpu 2 32 g (fun ds' => ds' = ds) /\
    ds_lookup ds 0 0 1 = Some (2, 4) /\ ds_lookup ds 1 0 0 = Some (0, 1) /\ ds_lookup ds 0 2 1 = Some (0, 0).
Proof.
  destruct (init (P2 3 ex_pts) (Some ex_bids) None None) as [p|] eqn:E; [|discriminate].
  destruct (mk_grid GPU 0 p [4#3]) as [g|] eqn:Eg; [|vm_compute in E; injection E as <-; vm_compute in Eg; discriminate].
  exists p, g.
  assert (Gv : gskeys g = [12; 9; 2; 2; 0] /\ gnc g = [3; 2; 2] /\ gds g = None /\ bsize (gcloud g) = 2%nat).
  { clear - E Eg. vm_compute in E. injection E as <-. vm_compute in Eg. injection Eg as <-. repeat split; reflexivity. }
  destruct Gv as (G1 & G2 & G3 & G4).
  destruct (ex_ds 2 32) as (ds & Eb & R'); try lia.
  assert (R : dsranges ds = [(4, 5); (2, 4); (0, 0); (0, 0); (1, 2); (0, 0); (0, 1); (0, 0); (0, 0); (0, 0); (0, 0); (0, 0)]).
  { clear - Eb. vm_compute in Eb. injection Eb as <-. reflexivity. }
  exists (GridDS 2 3 2 (dsranges ds)). split; [auto|]. split; [auto|]. split.
  - unfold get_DS_gpu. rewrite G1, G2, G3, G4. cbn [nth]. destruct R' as (A1 & A2 & A3 & A4). split; [exact A1|]. split; [exact A2|]. split; [exact A3|].
    revert A4. apply every_run_weaken. intros m ->. reflexivity.
  - rewrite R. repeat split; reflexivity.
Qed.
