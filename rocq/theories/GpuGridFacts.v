(** Facts about the CUDA grid operations. *)
From Coq Require Import List Arith ZArith QArith Qround Lia Lqa Bool Permutation Sorted.
From Verif Require Import Tensor TensorFacts Spec PointCloud SpecCloud History PointCloudFacts QFacts
  Grid SpecGrid GridFacts Cuda CudaFacts GpuGrid.
Import ListNotations.
Local Open Scope Z_scope.

Lemma num_blocks_pos active bs n : (active <> 0 -> bs <> 0 -> n <> 0 -> num_blocks active bs n <> 0)%nat.
Proof.
  intros Ha Hb Hn. unfold num_blocks. assert (H : (n / bs + (if n mod bs =? 0 then 0 else 1) <> 0)%nat).
  { destruct (Nat.eqb_spec (n mod bs) 0) as [E|E]; [|lia]. pose proof (Nat.div_mod n bs Hb). nia. }
  lia.
Qed.
Lemma num_blocks_zero active bs : num_blocks active bs 0 = 0%nat.
Proof. unfold num_blocks. destruct bs as [|bs]; [cbn; lia|]. rewrite Nat.div_0_l, Nat.mod_0_l by lia. cbn. lia. Qed.

(** Kernels that write one value per index. *)
Lemma write_body_runs {A} (body : nat -> list (action (list A))) (f : nat -> A) blocks bsize n l :
  blocks <> 0%nat -> bsize <> 0%nat -> length l = n ->
  (forall i, (i < n)%nat -> exists g, body i = [g] /\ forall m, g m = wr i (f i) m) ->
  every_run (fun m' => m' = map f (seq 0 n)) (l, flat_kernel blocks bsize n body).
Proof.
  intros Hb Hs L H. apply flat_kernel_runs; auto.
  - intros i j a a' Hi Hj N Ha Ha' m. destruct (H i Hi) as (g & E & G). destruct (H j Hj) as (g' & E' & G').
    rewrite E in Ha. rewrite E' in Ha'. destruct Ha as [<-|[]]. destruct Ha' as [<-|[]].
    rewrite G, G'. transitivity (obind (wr i (f i) m) (wr j (f j))); [destruct (wr i (f i) m); cbn; auto|].
    rewrite wr_comm by auto. destruct (wr j (f j) m); cbn; auto.
  - rewrite <- (run_writes f n l L). assert (X : forall ks m, (forall k, In k ks -> (k < n)%nat) ->
      run_all (flat_map body ks) m = run_all (flat_map (fun i => [wr i (f i)]) ks) m).
    { induction ks as [|k ks IH]; intros m K; [auto|]. cbn. rewrite run_all_app.
      destruct (H k (K k (or_introl eq_refl))) as (g & E & G). rewrite E. cbn. rewrite G.
      destruct (wr k (f k) m); cbn; [|auto]. apply IH. intros; apply K; right; auto. }
    apply X. intros k Hk. apply in_seq in Hk. lia.
Qed.

(** * Keys *)
Lemma gpu_key_radix nc cell b : length cell = length nc ->
  gpu_key nc cell b = Z.of_nat b * zprod nc + radix nc cell.
Proof.
  intros L. unfold gpu_key.
  assert (H : fold_right (fun cn st => (fst st + fst cn * snd st, snd st * snd cn)) (0, 1) (combine cell nc) = (radix nc cell, zprod nc)).
  { revert cell L. induction nc as [|n nc IH]; intros [|c cell] L; cbn in L; try lia; [reflexivity|].
    cbn [combine fold_right]. rewrite IH by lia. cbn [fst snd radix]. rewrite zprod_cons. f_equal; lia. }
  rewrite H. lia.
Qed.

Lemma gpu_decode nc cs b : (forall x, In x nc -> 1 <= x) -> in_cells nc cs -> 0 <= b ->
  gpu_cell_from_key nc (b * zprod nc + radix nc cs) = (b, cs).
Proof.
  intros P H. revert b. induction H as [|n c nc cs Hc H IH]; intros b Hb; cbn [gpu_cell_from_key fold_right].
  - cbn. f_equal. lia.
  - cbn [radix]. rewrite zprod_cons. specialize (IH ltac:(intros; apply P; right; auto) (b * n + c) ltac:(nia)).
    unfold gpu_cell_from_key in IH.
    replace (b * (n * zprod nc) + (c * zprod nc + radix nc cs)) with ((b * n + c) * zprod nc + radix nc cs) by ring.
    rewrite IH. cbn [fst snd]. rewrite Z.quot_div_nonneg, Z.rem_mod_nonneg by nia.
    rewrite (Z.add_comm (b * n)). rewrite Z.div_add, Z.mod_add by lia. rewrite Z.div_small, Z.mod_small by lia. reflexivity.
Qed.

Lemma gpu_ds_of_key_cell n0 n1 rest c0 c1 cs b : (forall x, In x (n0 :: n1 :: rest) -> 1 <= x) ->
  in_cells (n0 :: n1 :: rest) (c0 :: c1 :: cs) -> 0 <= b ->
  gpu_ds_of_key (n0 :: n1 :: rest) (b * zprod (n0 :: n1 :: rest) + radix (n0 :: n1 :: rest) (c0 :: c1 :: cs)) = (b * n0 + c0) * n1 + c1.
Proof.
  intros P H Hb. inversion H as [|? ? ? ? H0 H']; subst. inversion H' as [|? ? ? ? H1 H2]; subst.
  unfold gpu_ds_of_key. cbn [skipn radix]. rewrite !zprod_cons.
  pose proof (radix_range rest cs H2). assert (1 <= zprod rest) by (apply zprod_pos; intros; apply P; right; right; auto).
  replace (b * (n0 * (n1 * zprod rest)) + (c0 * (n1 * zprod rest) + (c1 * zprod rest + radix rest cs)))
    with (radix rest cs + ((b * n0 + c0) * n1 + c1) * zprod rest) by ring.
  assert (0 <= (b * n0 + c0) * n1 + c1) by (assert (0 <= b * n0 + c0) by nia; nia).
  rewrite Z.quot_div_nonneg; [|nia|lia]. rewrite Z.div_add by lia. rewrite Z.div_small by lia. lia.
Qed.

(** * The grid object *)
(** The cell of point [i], clamped to the grid. *)
Definition gcell eps D rows ids (cells : point) (nc : list Z) (i d : nat) : Z :=
  Z.min (Z.max (raw_cell (lo_at eps D rows ids i) cells (nth i rows []) d) 0) (nth d nc 0 - 1).

Record is_gpu_grid (eps : Q) (D : nat) (rows : list point) (ids : list nat) (B : nat)
  (cells : point) (g : grid) : Prop := {
  gg_cloud : is_cloud GPU eps D rows ids B (gcloud g);
  gg_cells : gcells g = cells;
  gg_cells_len : length cells = D;
  gg_cells_pos : forall d, (d < D)%nat -> (0 < coord cells d)%Q;
  gg_min : amin (gbox g) = map (lo_of eps D rows ids) (seq 0 B);
  gg_max : amax (gbox g) = map (hi_of eps D rows ids) (seq 0 B);
  gg_nc : gnc g = num_cells D (gbox g) cells;
  gg_keys : gkeys g = map (fun i => Z.of_nat (nth i ids 0%nat) * zprod (gnc g) +
      radix (gnc g) (map (gcell eps D rows ids cells (gnc g) i) (seq 0 D))) (seq 0 (length ids));
  gg_sidx : gsidx g = argsort_desc (gkeys g);
  gg_skeys : gskeys g = map (fun i => nth i (gkeys g) 0) (gsidx g);
  gg_spts : gspts g = map (fun i => nth i rows []) (gsidx g);
  gg_sbids : gsbids g = map (fun i => nth i ids 0%nat) (gsidx g);
  gg_ds : gds g = None }.

Lemma gpu_floor lo cells p d : (0 < coord cells d)%Q ->
  Qfloor (coord p d * / coord cells d - coord lo d / coord cells d) = raw_cell lo cells p d.
Proof. intros H. unfold raw_cell. apply Qfloor_comp. field. lra. Qed.

Lemma num_cells_pos D a cells d : (d < D)%nat -> 1 <= nth d (num_cells D a cells) 0.
Proof. intros H. unfold num_cells. rewrite nth_map_seq by auto. lia. Qed.
Lemma num_cells_length D a cells : length (num_cells D a cells) = D.
Proof. unfold num_cells. now rewrite map_length, seq_length. Qed.

Lemma compute_keys_gpu_ok active warp eps D rows ids B a cells (P : list Z -> Prop) :
  active <> 0%nat -> warp <> 0%nat -> supported D -> ids <> [] ->
  length rows = length ids -> Forall (fun b => (b < B)%nat) ids ->
  length cells = D -> (forall d, (d < D)%nat -> (0 < coord cells d)%Q) ->
  amin a = map (lo_of eps D rows ids) (seq 0 B) ->
  let nc := num_cells D a cells in
  P (map (fun i => Z.of_nat (nth i ids 0%nat) * zprod nc + radix nc (map (gcell eps D rows ids cells nc i) (seq 0 D))) (seq 0 (length ids))) ->
  compute_keys_gpu active warp D a nc cells rows ids P.
Proof.
  intros Ha Hw HD Hne HL HB HC HP Hmin nc HPk. unfold compute_keys_gpu, compute_keys_op.
  assert (Hn : length ids <> 0%nat) by (destruct ids; cbn; congruence).
  split; [auto|]. split; [auto|]. split; [|split; [apply num_cells_length|split; [now rewrite map_length|]]].
  { rewrite Forall_forall. intros x Hx. apply in_map_iff in Hx. destruct Hx as (lo & <- & _). now rewrite map_length, seq_length. }
  intros out Lo. cbv zeta. split; [apply num_blocks_pos; lia|].
  eapply every_run_weaken; [|eapply (write_body_runs _ (fun i => Z.of_nat (nth i ids 0%nat) * zprod nc + radix nc (map (gcell eps D rows ids cells nc i) (seq 0 D))))].
  - intros m ->. now rewrite HL.
  - apply num_blocks_pos; lia.
  - lia.
  - auto.
  - intros i Hi. eexists. split; [reflexivity|]. intros m. cbv beta. unfold rd.
    assert (Hb : (nth i ids 0 < B)%nat) by (rewrite Forall_forall in HB; apply HB, nth_In; lia).
    rewrite (nth_error_nth' ids i 0%nat) by lia. cbn [obind]. rewrite (nth_error_nth' rows i []) by lia. cbn [obind].
    rewrite Hmin, map_map, nth_error_map. rewrite (nth_error_nth' (seq 0 B) (nth i ids 0%nat) 0%nat) by (rewrite seq_length; auto).
    rewrite seq_nth by auto. cbn [option_map obind Nat.add]. f_equal.
    rewrite gpu_key_radix by (unfold gpu_cell; rewrite map_length, seq_length; unfold nc; now rewrite num_cells_length).
    do 2 f_equal. unfold gpu_cell. apply map_ext_in. intros d Hd. apply in_seq in Hd. unfold gcell. do 2 f_equal.
    transitivity (Qfloor (coord (nth i rows []) d * / coord cells d - coord (lo_of eps D rows ids (nth i ids 0%nat)) d / coord cells d)).
    + f_equal. f_equal.
      * f_equal. unfold coord. rewrite (nth_indep _ 0%Q (/ 0)%Q) by (rewrite map_length; lia). now rewrite map_nth.
      * f_equal. unfold coord at 1. rewrite nth_map_seq by lia. reflexivity.
    + apply gpu_floor. apply HP. lia.
Qed.

Lemma mk_grid_gpu_ok active warp eps D rows ids B p cs (P : grid -> Prop) :
  active <> 0%nat -> warp <> 0%nat -> supported D -> ids <> [] ->
  is_cloud GPU eps D rows ids B p -> valid_sizes D cs ->
  (forall g, is_gpu_grid eps D rows ids B (bcast D cs) g -> P g) ->
  mk_grid_gpu active warp eps p cs P.
Proof.
  intros Ha Hw HD Hne Hc Hv HP. pose proof (valid_sizes_pos D cs Hv) as [Hl Hp]. destruct Hv as [_ HF].
  unfold mk_grid_gpu. rewrite (ic_dim _ _ _ _ _ _ _ Hc).
  destruct (get_aabb_cloud GPU eps D rows ids B p Hc) as (p' & a & E & Hc' & Hmin & Hmax).
  rewrite E. exists a. split; [auto|]. split; [auto|]. split; [auto|]. cbv zeta.
  pose proof Hc' as [H1 H2 H3 H4 H5 H6 H7 H8]. rewrite H1, H2.
  apply (compute_keys_gpu_ok active warp eps D rows ids B); auto.
  set (nc := num_cells D a (bcast D cs)). set (keys := map _ (seq 0 (length ids))).
  assert (Lk : length keys = length ids) by (unfold keys; rewrite map_length, seq_length; reflexivity).
  pose proof (argsort_lt (fun a b => b <=? a) keys) as Hlt. fold (argsort_desc keys) in Hlt.
  rewrite (gather_map keys _ 0) by exact Hlt.
  rewrite (gather_map rows _ []) by (rewrite H5, <- Lk; exact Hlt).
  rewrite (gather_map ids _ 0%nat) by (rewrite <- Lk; exact Hlt).
  eexists. eexists. eexists. do 3 (split; [reflexivity|]). apply HP. constructor; cbn; auto.
Qed.

  Lemma in_cells_seq (f : nat -> Z) l : (forall d, (d < length l)%nat -> 0 <= f d < nth d l 0) -> in_cells l (map f (seq 0 (length l))).
  Proof.
    revert f. induction l as [|x l IH]; intros f H; [constructor|]. cbn [length seq map]. constructor.
    - apply (H 0%nat). cbn. lia.
    - rewrite <- seq_shift, map_map. apply IH. intros d Hd. apply (H (S d)). cbn. lia.
  Qed.
Section GpuGridObj.
  Context (eps : Q) (D : nat) (rows : list point) (ids : list nat) (B : nat) (cells : point) (g : grid).
  Hypothesis G : is_gpu_grid eps D rows ids B cells g.
  Let N := length ids.
  Let nc := gnc g.
  Let C i := map (gcell eps D rows ids cells nc i) (seq 0 D).

  Lemma gg_len : length rows = N.
  Proof. exact (ic_len _ _ _ _ _ _ _ (gg_cloud _ _ _ _ _ _ _ G)). Qed.
  Lemma gg_id_lt i : (i < N)%nat -> (nth i ids 0 < B)%nat.
  Proof. intros H. pose proof (ic_ids _ _ _ _ _ _ _ (gg_cloud _ _ _ _ _ _ _ G)) as F. rewrite Forall_forall in F. apply F, nth_In. exact H. Qed.
  Lemma gg_nc_length : length nc = D.
  Proof. unfold nc. rewrite (gg_nc _ _ _ _ _ _ _ G). apply num_cells_length. Qed.
  Lemma gg_nc_pos d : (d < D)%nat -> 1 <= nth d nc 0.
  Proof. intros H. unfold nc. rewrite (gg_nc _ _ _ _ _ _ _ G). now apply num_cells_pos. Qed.
  Lemma gg_nc_pos_all x : In x nc -> 1 <= x.
  Proof. intros H. apply In_nth with (d := 0) in H. destruct H as (d & Hd & <-). apply gg_nc_pos. now rewrite <- gg_nc_length. Qed.
  Lemma gg_prod_pos : 1 <= zprod nc.
  Proof. apply zprod_pos, gg_nc_pos_all. Qed.
  Lemma gg_keys_length : length (gkeys g) = N.
  Proof. rewrite (gg_keys _ _ _ _ _ _ _ G). now rewrite map_length, seq_length. Qed.
  Lemma gg_sidx_perm : Permutation (gsidx g) (seq 0 N).
  Proof. rewrite (gg_sidx _ _ _ _ _ _ _ G). unfold argsort_desc. rewrite <- gg_keys_length. apply argsort_perm. Qed.
  Lemma gg_sidx_length : length (gsidx g) = N.
  Proof. rewrite (Permutation_length gg_sidx_perm). apply seq_length. Qed.
  Lemma gg_sidx_lt j : (j < N)%nat -> (nth j (gsidx g) 0 < N)%nat.
  Proof.
    intros H. assert (I : In (nth j (gsidx g) 0%nat) (gsidx g)) by (apply nth_In; now rewrite gg_sidx_length).
    apply (Permutation_in _ gg_sidx_perm) in I. apply in_seq in I. lia.
  Qed.
  Lemma gg_sidx_NoDup : NoDup (gsidx g).
  Proof. eapply Permutation_NoDup; [symmetry; apply gg_sidx_perm|apply seq_NoDup]. Qed.
  Lemma gg_skeys_length : length (gskeys g) = N.
  Proof. rewrite (gg_skeys _ _ _ _ _ _ _ G). now rewrite map_length, gg_sidx_length. Qed.
  Lemma gg_spts_length : length (gspts g) = N.
  Proof. rewrite (gg_spts _ _ _ _ _ _ _ G). now rewrite map_length, gg_sidx_length. Qed.
  Lemma gg_map_sidx {A} (f : nat -> A) (e : A) j : (j < N)%nat -> nth j (map f (gsidx g)) e = f (nth j (gsidx g) 0%nat).
  Proof.
    intros H. rewrite (nth_indep _ e (f 0%nat)) by (rewrite map_length, gg_sidx_length; exact H). now rewrite map_nth.
  Qed.
  Lemma gg_skeys_nth j : (j < N)%nat -> nth j (gskeys g) 0 = nth (nth j (gsidx g) 0%nat) (gkeys g) 0.
  Proof. intros H. rewrite (gg_skeys _ _ _ _ _ _ _ G). now rewrite gg_map_sidx. Qed.
  Lemma gg_spts_nth j : (j < N)%nat -> nth j (gspts g) [] = nth (nth j (gsidx g) 0%nat) rows [].
  Proof. intros H. rewrite (gg_spts _ _ _ _ _ _ _ G). now rewrite gg_map_sidx. Qed.
  Lemma gg_sbids_nth j : (j < N)%nat -> nth j (gsbids g) 0%nat = nth (nth j (gsidx g) 0%nat) ids 0%nat.
  Proof. intros H. rewrite (gg_sbids _ _ _ _ _ _ _ G). now rewrite gg_map_sidx. Qed.
  Lemma gg_sorted j k : (j < k)%nat -> (k < N)%nat -> nth k (gskeys g) 0 <= nth j (gskeys g) 0.
  Proof.
    intros Hjk Hk. rewrite !gg_skeys_nth by lia. rewrite (gg_sidx _ _ _ _ _ _ _ G).
    pose proof (argsort_sorted (fun a b => b <=? a) 0 desc_total desc_trans (gkeys g)) as HS.
    assert (Hk' : (k < length (argsort_desc (gkeys g)))%nat)
      by (unfold argsort_desc; rewrite argsort_length, gg_keys_length; exact Hk).
    pose proof (StronglySorted_nth _ _ j k 0%nat HS Hjk Hk') as [H1 H2].
    fold (argsort_desc (gkeys g)) in *. now apply Z.leb_le in H1.
  Qed.
  Lemma gg_cell_range i d : (d < D)%nat -> 0 <= gcell eps D rows ids cells nc i d < nth d nc 0.
  Proof. intros Hd. pose proof (gg_nc_pos d Hd). unfold gcell. lia. Qed.
  Lemma gg_cells_in i : in_cells nc (C i).
  Proof. unfold C. rewrite <- gg_nc_length at 2. apply in_cells_seq. intros d Hd. apply gg_cell_range. now rewrite <- gg_nc_length. Qed.
  Lemma gg_key i : (i < N)%nat -> nth i (gkeys g) 0 = Z.of_nat (nth i ids 0%nat) * zprod nc + radix nc (C i).
  Proof. intros H. rewrite (gg_keys _ _ _ _ _ _ _ G). now rewrite nth_map_seq. Qed.
  Lemma gg_key_range i : (i < N)%nat -> 0 <= nth i (gkeys g) 0 < Z.of_nat B * zprod nc.
  Proof.
    intros Hi. rewrite (gg_key i Hi). pose proof (radix_range nc _ (gg_cells_in i)). pose proof (gg_id_lt i Hi). pose proof gg_prod_pos. nia.
  Qed.
End GpuGridObj.

(** * The access structure *)
Section DS.
  Variables (f : nat -> Z) (n S : nat).
  Hypothesis Hdesc : forall j k, (j < k)%nat -> (k < n)%nat -> f k <= f j.
  Hypothesis Hrange : forall j, (j < n)%nat -> 0 <= f j < Z.of_nat S.

  Definition ds_updates (i : nat) : list (nat * (Z * Z -> Z * Z)) :=
    (if (Nat.ltb 0 i) && negb (f i =? f (i - 1)%nat) then [(Z.to_nat (f i), fun e => (Z.of_nat i, snd e))] else []) ++
    (if Nat.eqb (i + 1) n then [(Z.to_nat (f i), fun e => (fst e, Z.of_nat n))]
     else if negb (f i =? f (i + 1)%nat) then [(Z.to_nat (f i), fun e => (fst e, Z.of_nat (i + 1)))] else []).
  Definition ds_fold (d : nat) (k : nat) : Z * Z :=
    fold_left (fun e u => if Nat.eqb (fst u) d then snd u e else e) (flat_map ds_updates (seq 0 k)) (0, 0).

  Definition ds_first (d : nat) (i : nat) : Prop := (0 < i)%nat /\ f i = Z.of_nat d /\ f (i - 1)%nat <> f i.
  Definition ds_last (d : nat) (i : nat) : Prop := f i = Z.of_nat d /\ ((i + 1)%nat = n \/ f (i + 1)%nat <> f i).

  Lemma ds_fold_S d k : ds_fold d (k + 1) = fold_left (fun e u => if Nat.eqb (fst u) d then snd u e else e) (ds_updates k) (ds_fold d k).
  Proof. unfold ds_fold. rewrite Nat.add_1_r, seq_S, flat_map_app, fold_left_app. cbn. now rewrite app_nil_r. Qed.

  Lemma ds_fold_inv d k : (k <= n)%nat ->
    (forall i, (i < k)%nat -> ds_first d i -> fst (ds_fold d k) = Z.of_nat i) /\
    ((forall i, (i < k)%nat -> ~ ds_first d i) -> fst (ds_fold d k) = 0) /\
    (forall i, (i < k)%nat -> ds_last d i -> snd (ds_fold d k) = Z.of_nat (i + 1)) /\
    ((forall i, (i < k)%nat -> ~ ds_last d i) -> snd (ds_fold d k) = 0).
  Proof.
    induction k as [|k IH]; intros Hk.
    - repeat split; intros; lia.
    - destruct (IH ltac:(lia)) as (I1 & I2 & I3 & I4). rewrite <- Nat.add_1_r at 1. rewrite <- (Nat.add_1_r k). rewrite !ds_fold_S.
      pose proof (Hrange k ltac:(lia)) as Rk.
      set (e := ds_fold d k) in *.
      assert (Eq : fold_left (fun e u => if Nat.eqb (fst u) d then snd u e else e) (ds_updates k) e =
        ((if (Nat.ltb 0 k) && negb (f k =? f (k - 1)%nat) && (f k =? Z.of_nat d) then Z.of_nat k else fst e),
         (if (Nat.eqb (k + 1) n || negb (f k =? f (k + 1)%nat)) && (f k =? Z.of_nat d) then Z.of_nat (k + 1) else snd e))).
      { unfold ds_updates. assert (Ed : Nat.eqb (Z.to_nat (f k)) d = (f k =? Z.of_nat d)).
        { destruct (Nat.eqb_spec (Z.to_nat (f k)) d), (Z.eqb_spec (f k) (Z.of_nat d)); auto; lia. }
        destruct ((0 <? k)%nat && negb (f k =? f (k - 1)%nat)); cbn [app fold_left andb orb].
        - cbn [fst snd]. rewrite Ed. destruct (Nat.eqb_spec (k + 1) n) as [En|En]; cbn [fold_left fst snd andb orb].
          + rewrite Ed. destruct (f k =? Z.of_nat d); cbn [andb orb fst snd]; [rewrite <- En; auto|]. now destruct e.
          + destruct (negb (f k =? f (k + 1)%nat)); cbn [fold_left fst snd andb orb]; rewrite ?Ed; destruct (f k =? Z.of_nat d); cbn [andb orb fst snd]; auto; now destruct e.
        - destruct (Nat.eqb_spec (k + 1) n) as [En|En]; cbn [fold_left fst snd andb orb].
          + rewrite Ed. destruct (f k =? Z.of_nat d); cbn [andb orb fst snd]; [rewrite <- En; auto|]. now destruct e.
          + destruct (negb (f k =? f (k + 1)%nat)); cbn [fold_left fst snd andb orb]; rewrite ?Ed; destruct (f k =? Z.of_nat d); cbn [andb orb fst snd]; auto; now destruct e. }
      rewrite Eq. cbn [fst snd]. clear Eq.
      assert (F : (Nat.ltb 0 k) && negb (f k =? f (k - 1)%nat) && (f k =? Z.of_nat d) = true <-> ds_first d k).
      { unfold ds_first. rewrite !andb_true_iff, negb_true_iff, Nat.ltb_lt, Z.eqb_eq, Z.eqb_neq. intuition congruence. }
      assert (La : (Nat.eqb (k + 1) n || negb (f k =? f (k + 1)%nat)) && (f k =? Z.of_nat d) = true <-> ds_last d k).
      { unfold ds_last. rewrite !andb_true_iff, orb_true_iff, negb_true_iff, Nat.eqb_eq, Z.eqb_eq, Z.eqb_neq. intuition congruence. }
      assert (U : forall i, (i < k)%nat -> ds_first d i -> ds_first d k -> False).
      { intros i Hi (A1 & A2 & A3) (B1 & B2 & B3). destruct (Nat.eq_dec i (k - 1)) as [->|N]; [congruence|].
        pose proof (Hdesc i (k - 1) ltac:(lia) ltac:(lia)). pose proof (Hdesc (k - 1)%nat k ltac:(lia) ltac:(lia)). lia. }
      assert (U' : forall i, (i < k)%nat -> ds_last d i -> ds_last d k -> False).
      { intros i Hi (A1 & [A2|A2]) (B1 & _); [lia|]. destruct (Nat.eq_dec k (i + 1)) as [->|N]; [congruence|].
        pose proof (Hdesc (i + 1)%nat k ltac:(lia) ltac:(lia)). pose proof (Hdesc i (i + 1)%nat ltac:(lia) ltac:(lia)). lia. }
      destruct ((Nat.ltb 0 k) && negb (f k =? f (k - 1)%nat) && (f k =? Z.of_nat d)) eqn:Fb;
      destruct ((Nat.eqb (k + 1) n || negb (f k =? f (k + 1)%nat)) && (f k =? Z.of_nat d)) eqn:Lb.
      all: (split; [|split; [|split]]).
      all: try (intros i Hi Hf; destruct (Nat.eq_dec i k) as [->|N]; [now try reflexivity; try (apply F in Hf; congruence); try (apply La in Hf; congruence)|]).
      all: try (exfalso; eapply U; [| |apply F; reflexivity]; [|eassumption]; lia).
      all: try (exfalso; eapply U'; [| |apply La; reflexivity]; [|eassumption]; lia).
      all: try (apply I1; [lia|assumption]).
      all: try (apply I3; [lia|assumption]).
      all: intros Hno.
      all: try (exfalso; apply (Hno k); [lia|]; (apply F || apply La); reflexivity).
      all: try (apply I2; intros i Hi; apply Hno; lia).
      all: try (apply I4; intros i Hi; apply Hno; lia).
  Qed.

  Lemma exists_first (P : nat -> Prop) (Pd : forall i, {P i} + {~ P i}) j : P j -> exists i, (i <= j)%nat /\ P i /\ forall k, (k < i)%nat -> ~ P k.
  Proof.
    induction j as [j IH] using lt_wf_ind. intros Pj.
    destruct (Exists_dec P (seq 0 j) Pd) as [E|E].
    - apply Exists_exists in E. destruct E as (k & Hk & Pk). apply in_seq in Hk. destruct (IH k ltac:(lia) Pk) as (i & ? & ? & ?). exists i. split; [lia|auto].
    - exists j. split; [lia|]. split; [auto|]. intros k Hk Pk. apply E. apply Exists_exists. exists k. split; [apply in_seq; lia|auto].
  Qed.

  (** The entry of the finished structure. *)
  Lemma ds_fold_spec d :
    (forall j, (j < n)%nat -> (fst (ds_fold d n) <= Z.of_nat j < snd (ds_fold d n) <-> f j = Z.of_nat d)) /\
    ((forall j, (j < n)%nat -> f j <> Z.of_nat d) -> ds_fold d n = (0, 0)) /\
    0 <= fst (ds_fold d n) <= snd (ds_fold d n) /\ snd (ds_fold d n) <= Z.of_nat n.
  Proof.
    destruct (ds_fold_inv d n ltac:(lia)) as (I1 & I2 & I3 & I4).
    destruct (Exists_dec (fun j => f j = Z.of_nat d) (seq 0 n) (fun j => Z.eq_dec _ _)) as [E|E].
    - apply Exists_exists in E. destruct E as (j0 & Hj0 & Ej0). apply in_seq in Hj0.
      destruct (exists_first (fun j => f j = Z.of_nat d) (fun j => Z.eq_dec _ _) j0 Ej0) as (a & Ha & Ea & Ma).
      assert (Hlast : exists b, (b < n)%nat /\ f b = Z.of_nat d /\ forall k, (b < k)%nat -> (k < n)%nat -> f k <> Z.of_nat d).
      { destruct (exists_first (fun j => f (n - 1 - j)%nat = Z.of_nat d) (fun j => Z.eq_dec _ _) (n - 1 - j0)) as (b & Hb & Eb & Mb).
        { replace (n - 1 - (n - 1 - j0))%nat with j0 by lia. auto. }
        exists (n - 1 - b)%nat. split; [lia|]. split; [auto|]. intros k Hk Hk'. specialize (Mb (n - 1 - k)%nat ltac:(lia)).
        replace (n - 1 - (n - 1 - k))%nat with k in Mb by lia. auto. }
      destruct Hlast as (b & Hb & Eb & Mb).
      assert (X : fst (ds_fold d n) = Z.of_nat a).
      { destruct (Nat.eq_dec a 0) as [->|Na].
        - apply I2. intros i Hi (A1 & A2 & A3).
          assert (f (i - 1)%nat = Z.of_nat d); [|congruence].
          destruct (Nat.eq_dec (i - 1) 0) as [->|N0]; [auto|]. pose proof (Hdesc 0%nat (i - 1)%nat ltac:(lia) ltac:(lia)). pose proof (Hdesc (i - 1)%nat i ltac:(lia) ltac:(lia)). lia.
        - apply I1; [lia|]. split; [lia|]. split; [auto|]. rewrite Ea. apply Ma. lia. }
      assert (Y : snd (ds_fold d n) = Z.of_nat (b + 1)).
      { apply I3; [lia|]. split; [auto|]. destruct (Nat.eq_dec (b + 1) n) as [->|Nb]; [auto|]. right. rewrite Eb. apply Mb; lia. }
      rewrite X, Y.
      assert (Hab : (a <= b)%nat).
      { destruct (Nat.le_gt_cases a b); [auto|]. exfalso. apply (Ma b); auto. }
      split; [|split; [|split; [split|]; lia]].
      + intros j Hj. split.
        * intros [H1 H2]. assert (a <= j <= b)%nat by lia.
          assert (f j <= f a) by (destruct (Nat.eq_dec j a) as [->|]; [lia|apply Hdesc; lia]).
          assert (f b <= f j) by (destruct (Nat.eq_dec j b) as [->|]; [lia|apply Hdesc; lia]). lia.
        * intros Ej. split.
          -- destruct (Nat.lt_ge_cases j a) as [H|H]; [exfalso; apply (Ma j); auto|lia].
          -- destruct (Nat.le_gt_cases j b) as [H|H]; [lia|exfalso; apply (Mb j); auto].
      + intros H. exfalso. apply (H b); auto.
    - assert (Hno : forall j, (j < n)%nat -> f j <> Z.of_nat d).
      { intros j Hj Ej. apply E. apply Exists_exists. exists j. split; [apply in_seq; lia|auto]. }
      assert (X : fst (ds_fold d n) = 0) by (apply I2; intros i Hi (A1 & A2 & A3); apply (Hno i); auto).
      assert (Y : snd (ds_fold d n) = 0) by (apply I4; intros i Hi (A1 & A2); apply (Hno i); auto).
      split; [|split].
      + intros j Hj. rewrite X, Y. split; [lia|]. intros Ej. exfalso. apply (Hno j); auto.
      + intros _. destruct (ds_fold d n); cbn in *; congruence.
      + lia.
  Qed.
End DS.

Lemma in_ds_updates f n i u : In u (ds_updates f n i) ->
  (0 < i)%nat /\ f i <> f (i - 1)%nat /\ u = (Z.to_nat (f i), fun e => (Z.of_nat i, snd e)) \/
  ((i + 1)%nat = n \/ f i <> f (i + 1)%nat) /\ exists v, u = (Z.to_nat (f i), fun e => (fst e, v)).
Proof.
  unfold ds_updates. rewrite in_app_iff. intros [H|H].
  - destruct (Nat.ltb_spec 0 i), (Z.eqb_spec (f i) (f (i - 1)%nat)); cbn in H; try contradiction; destruct H as [<-|[]]; left; auto.
  - destruct (Nat.eqb_spec (i + 1) n).
    + destruct H as [<-|[]]. right. eauto.
    + destruct (Z.eqb_spec (f i) (f (i + 1)%nat)); cbn in H; try contradiction; destruct H as [<-|[]]. right. eauto.
Qed.

Lemma ds_updates_commute f n S i j u v :
  (forall j k, (j < k)%nat -> (k < n)%nat -> f k <= f j) -> (forall j, (j < n)%nat -> 0 <= f j < Z.of_nat S) ->
  (i < n)%nat -> (j < n)%nat -> i <> j -> In u (ds_updates f n i) -> In v (ds_updates f n j) ->
  commute (atomic (fst u) (snd u)) (atomic (fst v) (snd v)).
Proof.
  intros Hd Hr Hi Hj N Hu Hv. apply atomic_comm. pose proof (Hr i Hi). pose proof (Hr j Hj).
  assert (X : forall i j, (i < j)%nat -> (j < n)%nat -> (0 < j)%nat -> f j <> f (j - 1)%nat -> f i <> f j).
  { clear - Hd. intros i j L Lj L0 Hne E. destruct (Nat.eq_dec i (j - 1)) as [->|Ni]; [congruence|].
    pose proof (Hd i (j - 1)%nat ltac:(lia) ltac:(lia)). pose proof (Hd (j - 1)%nat j ltac:(lia) ltac:(lia)). lia. }
  assert (Y : forall i j, (i < j)%nat -> (j < n)%nat -> ((i + 1)%nat = n \/ f i <> f (i + 1)%nat) -> f i <> f j).
  { clear - Hd. intros i j L Lj Hne E. destruct (Nat.eq_dec j (i + 1)) as [->|Ni]; [destruct Hne; [lia|congruence]|].
    pose proof (Hd i (i + 1)%nat ltac:(lia) ltac:(lia)). pose proof (Hd (i + 1)%nat j ltac:(lia) ltac:(lia)). destruct Hne; lia. }
  apply in_ds_updates in Hu, Hv.
  destruct Hu as [(A1 & A2 & ->)|(A1 & a & ->)], Hv as [(B1 & B2 & ->)|(B1 & b & ->)]; cbn [fst snd].
  - left. destruct (Nat.lt_ge_cases i j); [pose proof (X i j ltac:(lia) Hj B1 B2)|pose proof (X j i ltac:(lia) Hi A1 A2)]; lia.
  - right. auto.
  - right. auto.
  - left. destruct (Nat.lt_ge_cases i j); [pose proof (Y i j ltac:(lia) Hj A1)|pose proof (Y j i ltac:(lia) Hi B1)]; lia.
Qed.

Lemma fold_left_ext {A B} (g h : A -> B -> A) l a : (forall x y, In y l -> g x y = h x y) -> fold_left g l a = fold_left h l a.
Proof. revert a. induction l as [|y l IH]; intros a H; cbn; [auto|]. rewrite H by (left; auto). apply IH. intros; apply H; right; auto. Qed.

(** The result of the kernel, whatever the schedule. *)
Lemma build_grid_ds_runs active warp keys nc B (P : list (Z * Z) -> Prop) :
  active <> 0%nat -> warp <> 0%nat -> supported (length nc) -> (0 < B)%nat -> keys <> [] ->
  (forall x, In x nc -> 1 <= x) ->
  (forall j, (j < length keys)%nat -> 0 <= nth j keys 0 < Z.of_nat B * zprod nc) ->
  (forall j k, (j < k)%nat -> (k < length keys)%nat -> nth k keys 0 <= nth j keys 0) ->
  P (map (fun d => ds_fold (fun j => gpu_ds_of_key nc (nth j keys 0)) (length keys) d (length keys))
         (seq 0 (Z.to_nat (Z.of_nat B * nth 0 nc 0 * nth 1 nc 0)))) ->
  build_grid_ds_gpu active warp keys nc B P.
Proof.
  intros Ha Hw HD HB Hne Hp Hr Hs HP. set (n := length keys) in *. set (f := fun j => gpu_ds_of_key nc (nth j keys 0)) in *.
  assert (Hn : n <> 0%nat) by (unfold n; destruct keys; cbn; congruence).
  split; [auto|]. split; [auto|]. cbv zeta. fold n. set (S := Z.to_nat (Z.of_nat B * nth 0 nc 0 * nth 1 nc 0)) in *.
  assert (Hnc : exists n0 n1 rest, nc = n0 :: n1 :: rest).
  { destruct nc as [|n0 [|n1 rest]]; unfold supported in HD; cbn in HD; try lia. eauto. }
  destruct Hnc as (n0 & n1 & rest & ->). cbn [nth] in *.
  assert (H0 : 1 <= n0) by (apply Hp; left; auto). assert (H1 : 1 <= n1) by (apply Hp; right; left; auto).
  assert (HR : 1 <= zprod rest) by (apply zprod_pos; intros; apply Hp; right; right; auto).
  assert (Hf : forall j, (j < n)%nat -> f j = nth j keys 0 / zprod rest).
  { intros j Hj. unfold f, gpu_ds_of_key. cbn [skipn]. specialize (Hr j Hj). apply Z.quot_div_nonneg; lia. }
  assert (Hfr : forall j, (j < n)%nat -> 0 <= f j < Z.of_nat S).
  { intros j Hj. rewrite (Hf j Hj). specialize (Hr j Hj). rewrite !zprod_cons in Hr. split; [apply Z.div_pos; lia|].
    unfold S. rewrite Z2Nat.id by nia. apply Z.div_lt_upper_bound; lia. }
  assert (Hfd : forall j k, (j < k)%nat -> (k < n)%nat -> f k <= f j).
  { intros j k Hjk Hk. rewrite (Hf k), (Hf j) by lia. apply Z.div_le_mono; [lia|]. now apply Hs. }
  assert (Hbody : forall i, (i < n)%nat -> build_grid_ds_body (n0 :: n1 :: rest) keys i = map (fun u => atomic (fst u) (snd u)) (ds_updates f n i)).
  { intros i Hi. unfold build_grid_ds_body, ds_updates, ds_set_x, ds_set_y. fold n.
    change (gpu_ds_of_key (n0 :: n1 :: rest) (nth i keys 0)) with (f i).
    change (gpu_ds_of_key (n0 :: n1 :: rest) (nth (i - 1) keys 0)) with (f (i - 1)%nat).
    change (gpu_ds_of_key (n0 :: n1 :: rest) (nth (i + 1) keys 0)) with (f (i + 1)%nat).
    specialize (Hfr i Hi). destruct (Z.ltb_spec (f i) 0); [lia|].
    rewrite map_app. destruct ((0 <? i)%nat && negb (f i =? f (i - 1)%nat)), (i + 1 =? n)%nat, (negb (f i =? f (i + 1)%nat)); reflexivity. }
  split; [apply num_blocks_pos; lia|].
  eapply every_run_weaken with (P := fun m => m = map (fun d => ds_fold f n d n) (seq 0 S)); [intros m ->; exact HP|].
  apply flat_kernel_runs; [apply num_blocks_pos; lia|lia| |].
  - intros i j a a' Hi Hj N Ha' Hb'. rewrite Hbody in Ha', Hb' by auto.
    apply in_map_iff in Ha', Hb'. destruct Ha' as (u & <- & Hu), Hb' as (v & <- & Hv). apply (ds_updates_commute f n S i j); auto.
  - assert (E : flat_map (build_grid_ds_body (n0 :: n1 :: rest) keys) (seq 0 n) = map (fun u => atomic (fst u) (snd u)) (flat_map (ds_updates f n) (seq 0 n))).
    { assert (X : forall ks, (forall k, In k ks -> (k < n)%nat) -> flat_map (build_grid_ds_body (n0 :: n1 :: rest) keys) ks = map (fun u => atomic (fst u) (snd u)) (flat_map (ds_updates f n) ks)).
      { induction ks as [|k ks IH]; intros K; [auto|]. cbn [flat_map]. rewrite map_app, Hbody by (apply K; left; auto). f_equal. apply IH. intros; apply K; right; auto. }
      apply X. intros k Hk. apply in_seq in Hk. lia. }
    rewrite E. destruct (run_atomics (flat_map (ds_updates f n) (seq 0 n)) (repeat (0, 0) S)) as (l' & R & L & V).
    { intros u Hu. apply in_flat_map in Hu. destruct Hu as (i & Hi & Hu). apply in_seq in Hi. rewrite repeat_length.
      pose proof (Hfr i ltac:(lia)). apply in_ds_updates in Hu. destruct Hu as [(_ & _ & ->)|(_ & v & ->)]; cbn [fst]; lia. }
    rewrite R. f_equal. rewrite repeat_length in L. apply list_eq_nth; [rewrite map_length, seq_length; auto|].
    intros d x Hd. rewrite (nth_indep _ x (0, 0)) by auto. rewrite V. rewrite nth_repeat.
    rewrite (nth_indep _ x (0, 0)) by (rewrite map_length, seq_length; lia). rewrite nth_map_seq by lia. reflexivity.
Qed.
