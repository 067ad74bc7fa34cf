(** The CUDA sampling operation on a grid of a cloud. *)
From Coq Require Import String List Arith ZArith NArith QArith Qround Lia Lqa Bool Permutation.
From Verif Require Import Tensor TensorFacts Spec PointCloud SpecCloud History PointCloudFacts QFacts Grid SpecGrid GridFacts Neighbors SpecNeighbors NeighborFacts NeighborProofs Neighborhood NeighborhoodFacts Sampling SpecSampling SamplingFacts
  Cuda CudaFacts AddFacts GpuGrid GpuGridFacts GpuGridProofs GpuScan SpecGpu GpuNeighbors GpuCountFacts SlotFacts GpuStoreFacts GpuNeighborFacts GpuRangeFacts GpuGeometry GpuSearchFacts GpuNeighborProofs
  GpuSampling UniqueFacts PoissonFacts SampleFacts SpecGpuSampling.
Import ListNotations.
Local Open Scope nat_scope.

(** ** The rows of a point *)
Definition nb_of (nbs : list (nat * nat)) (p : nat) : list nat := map fst (filter (fun q => Nat.eqb (snd q) p) nbs).
Lemma nb_of_in nbs p j : In j (nb_of nbs p) <-> In (j, p) nbs.
Proof.
  unfold nb_of. rewrite in_map_iff. split.
  - intros ([a b] & <- & H). apply filter_In in H. destruct H as (H & E). apply Nat.eqb_eq in E. cbn in *. now subst.
  - intros H. exists (j, p). split; auto. apply filter_In. split; auto. apply Nat.eqb_refl.
Qed.
Lemma pd_neighbors_ok ends nbs N p : delimits ends nbs N -> p < N -> pd_neighbors ends nbs p = Some (nb_of nbs p).
Proof.
  intros (L & _ & H) Hp. specialize (H p Hp). cbv zeta in H. unfold pd_neighbors, rd.
  assert (E1 : match p with 0 => Some 0%Z | S q => nth_error ends q end = Some (match p with 0 => 0%Z | S q => nth q ends 0%Z end)).
  { destruct p as [|q]; auto. apply nth_error_nth'. lia. }
  rewrite E1. cbn [obind]. rewrite (nth_error_nth' ends p 0%Z) by lia. cbn [obind]. set (s := match p with 0 => 0%Z | S q => nth q ends 0%Z end) in *. set (e := nth p ends 0%Z) in *.
  destruct H as (R1 & R2 & R3). unfold row_reads, nb_of. rewrite <- R3. unfold slice.
  destruct (Z.leb_spec e s) as [C|C].
  - replace (Z.to_nat e - Z.to_nat s) with 0 by lia. reflexivity.
  - destruct (Z.ltb_spec s 0); [lia|]. destruct (Z.ltb_spec (Z.of_nat (length nbs)) e); [lia|]. cbn [orb]. do 3 f_equal. lia.
Qed.

Lemma ellipsoid_sym D radii rows ids i j : length radii = D -> (forall d, (d < D)%nat -> 0 < nth d radii 1)%Q ->
  inside_ellipsoid D radii rows ids rows ids i j -> inside_ellipsoid D radii rows ids rows ids j i.
Proof.
  intros L Hp (H1 & H2 & H3 & H4). split; auto. split; auto. split; auto. eapply Qle_lt_trans; [|exact H4]. apply Qle_lteq. right. apply qsum_ext.
  intros d Hd. apply in_seq in Hd. cbv zeta. specialize (Hp d ltac:(lia)). field. lra.
Qed.
Lemma ellipsoid_self D radii rows ids i : length radii = D -> (forall d, (d < D)%nat -> 0 < nth d radii 1)%Q -> i < length ids ->
  inside_ellipsoid D radii rows ids rows ids i i.
Proof.
  intros L Hp Hi. split; auto. split; auto. split; auto. eapply Qle_lt_trans; [|apply (eq_refl : (0 < 1)%Q)]. apply Qle_lteq. right.
  transitivity (fold_right Qplus 0%Q (map (fun _ : nat => 0%Q) (seq 0 D))).
  - apply qsum_ext. intros d Hd. apply in_seq in Hd. cbv zeta. specialize (Hp d ltac:(lia)). field. lra.
  - generalize (seq 0 D). induction l as [|x l IH]; cbn; [reflexivity|]. rewrite IH. reflexivity.
Qed.

(** ** Poisson disk sampling on sorted keys *)
Section KeyPoisson.
  Context (D : nat) (nc keys : list Z) (ps : list point) (bs : list nat) (pcells : nat -> list Z).
  Let n := length keys.
  Hypothesis HD : supported D.
  Hypothesis Ln : length nc = D.
  Hypothesis Lp : length ps = n.
  Hypothesis Lb : length bs = n.
  Hypothesis Hk : keys <> [].
  Hypothesis pos : forall x, In x nc -> (1 <= x)%Z.
  Hypothesis sorted : forall i j, i < j -> j < n -> (nth j keys 0 <= nth i keys 0)%Z.
  Hypothesis pkeys : forall j, j < n -> nth j keys 0%Z = (Z.of_nat (nth j bs 0%nat) * zprod nc + radix nc (pcells j))%Z /\ in_cells nc (pcells j).

  Lemma sorted_grouped i j k : i <= j <= k -> k < n -> nth i keys 0%Z = nth k keys 0%Z -> nth j keys 0%Z = nth i keys 0%Z.
  Proof.
    intros Hij Hk' E.
    assert (X : forall a b, a <= b -> b < n -> (nth b keys 0 <= nth a keys 0)%Z).
    { intros a b Hab Hb. destruct (Nat.eq_dec a b) as [->|Ne]; [lia|]. apply sorted; [lia|auto]. }
    pose proof (X i j ltac:(lia) ltac:(lia)). pose proof (X j k ltac:(lia) ltac:(auto)). lia.
  Qed.

  Lemma keys_poisson (active : skernel -> nat) warp (small large : list Q) ranges nbs (P : list point -> list Z -> list Z -> Prop) :
    (forall k, active k <> 0) -> warp <> 0 ->
    length small = D -> (forall d, (d < D)%nat -> 0 < nth d small 1)%Q -> length large = D -> (forall d, (d < D)%nat -> 0 < nth d large 1)%Q ->
    delimits ranges nbs n ->
    (forall j i, In (j, i) nbs -> inside_ellipsoid D large ps bs ps bs j i) ->
    (forall j i, inside_ellipsoid D small ps bs ps bs j i -> In (j, i) nbs) ->
    (forall j i d, inside_ellipsoid D small ps bs ps bs j i -> d < D -> (Z.abs (nth d (pcells i) 0 - nth d (pcells j) 0) <= 1)%Z) ->
    (forall sel, spread_sample D small large ps bs sel ->
       P (map (fun i => nth i ps []) sel) (map (fun i => Z.of_nat (nth i bs 0)) sel) (map Z.of_nat sel)) ->
    sampling_op active warp D ps bs keys nc nbs ranges 0 P.
  Proof.
    intros Ha Hw Ls Ps Ll Pl Hd Hn1 Hn2 Ht HP.
    unfold sampling_op. split; [lia|]. split; [auto|]. split; [lia|]. split; [lia|]. split; [auto|]. split; [destruct Hd; lia|].
    apply unique_keys_ok; auto. intros firsts Pf. cbv iota beta.
    assert (Cell : forall p, p < n -> snd (gpu_cell_from_key nc (nth p keys 0%Z)) = pcells p).
    { intros p Hp. destruct (pkeys p Hp) as (-> & I). rewrite gpu_decode; auto. lia. }
    assert (Nlt : forall p j, In j (nb_of nbs p) -> j < n /\ p < n).
    { intros p j H. apply nb_of_in, Hn1 in H. destruct H as (H1 & H2 & _). rewrite Lb in H1, H2. auto. }
    assert (Clt : forall p j, inside_ellipsoid D small ps bs ps bs j p -> j < n /\ p < n).
    { intros p j (H1 & H2 & _). rewrite Lb in H1, H2. auto. }
    rewrite Lp. apply poisson_runs with (nb := nb_of nbs) (close := fun p j => inside_ellipsoid D small ps bs ps bs j p); auto.
    - apply sorted_grouped.
    - intros p Hp. apply (pd_neighbors_ok _ _ n); auto.
    - intros p j H. apply (Nlt p j H).
    - intros p j _ H. apply nb_of_in, Hn2, H.
    - intros p j _ H. now apply ellipsoid_sym.
    - intros p Hp. apply ellipsoid_self; auto. lia.
    - intros p d Hp Hd'. fold n in Hp. rewrite Cell by auto. destruct (pkeys p Hp) as (_ & I). apply in_cells_nth in I. apply I. lia.
    - intros p j d Hp Hj Hd'. destruct (Clt _ _ Hj) as (Lj & Lp'). rewrite !Cell by auto. apply (Ht j p d); auto. lia.
    - intros p j Hp Hj Hc. destruct (Clt _ _ Hj) as (Lj & Lp'). destruct (pkeys p Lp') as (-> & Ip). destruct (pkeys j Lj) as (-> & Ij).
      destruct Hj as (_ & _ & Eb & _). rewrite Eb. do 2 f_equal. rewrite !Cell in Hc by auto.
      apply (nth_ext _ _ 0%Z 0%Z); [now rewrite (proj1 (proj1 (in_cells_nth _ _) Ip)), (proj1 (proj1 (in_cells_nth _ _) Ij))|]. intros d Hd'. rewrite (proj1 (proj1 (in_cells_nth _ _) Ip)) in Hd'. auto.
    - intros E. subst firsts. apply Permutation_nil in Pf. pose proof (firsts_count keys Hk) as C. rewrite Pf in C. cbn [length] in C.
      assert (0 <= tot (change keys) (seq 0 (length keys - 1)))%Z; [|lia]. apply tot_nonneg. intros i _. unfold change. destruct (_ =? _)%Z; lia.
    - intros cnt used H. rewrite (se_cnt _ _ _ _ _ _ H). pose proof (se_len _ _ _ _ _ _ H) as Lu.
      apply store_runs; auto; try lia.
      { intros E. rewrite E in Lp. cbn in Lp. apply Hk, length_zero_iff_nil. unfold n in Lp. lia. }
      intros sel Pe. rewrite !map_map. cbn [fst snd]. apply HP. split; [|split; [|split]].
      + eapply Permutation_NoDup; [symmetry; exact Pe|]. apply TensorFacts.NoDup_filter, seq_NoDup.
      + apply Forall_forall. intros i Hi. apply (Permutation_in _ Pe), selected_in in Hi. rewrite Lb. unfold n. rewrite <- Lu. apply nth_error_Some. unfold marked in Hi. congruence.
      + intros i j Hi Hj Ne Hin. apply (Permutation_in _ Pe), selected_in in Hi, Hj. apply Ne. apply (se_apart _ _ _ _ _ _ H j i); auto.
      + intros j Hj. rewrite Lb in Hj. destruct (se_cover _ _ _ _ _ _ H j) as (q & Iq & Mq); [apply in_seq; fold n; lia|]. exists q. split; [eapply Permutation_in; [symmetry; exact Pe|now apply selected_in]|].
        apply ellipsoid_sym; auto. now apply Hn1, nb_of_in.
  Qed.
End KeyPoisson.

(** The selection in terms of the points before sorting. *)
Lemma spread_original D small large rows ids ps bs sidx sel : Permutation sidx (seq 0 (length ids)) ->
  length bs = length ids -> (forall j, j < length ids -> nth j ps [] = nth (nth j sidx 0) rows []) -> (forall j, j < length ids -> nth j bs 0 = nth (nth j sidx 0) ids 0) ->
  spread_sample D small large ps bs sel -> spread_sample D small large rows ids (map (fun j => nth j sidx 0) sel).
Proof.
  intros Pm Lb Ep Eb (N1 & N2 & N3 & N4). rewrite Lb in *. rewrite Forall_forall in N2. set (n := length ids) in *.
  assert (Lx : length sidx = n) by (rewrite (Permutation_length Pm), seq_length; reflexivity).
  assert (Lt : forall j, j < n -> nth j sidx 0 < n).
  { intros j Hj. assert (I : In (nth j sidx 0) sidx) by (apply nth_In; lia). apply (Permutation_in _ Pm), in_seq in I. lia. }
  assert (ND : NoDup sidx) by (eapply Permutation_NoDup; [symmetry; exact Pm|apply seq_NoDup]).
  assert (Ins : forall radii i j, i < n -> j < n -> (inside_ellipsoid D radii ps bs ps bs i j <-> inside_ellipsoid D radii rows ids rows ids (nth i sidx 0) (nth j sidx 0))).
  { intros radii i j Hi Hj. unfold inside_ellipsoid. rewrite Lb. rewrite !Eb by auto. rewrite !Ep by auto.
    pose proof (Lt i Hi). pose proof (Lt j Hj). tauto. }
  assert (Inj : forall i j, i < n -> j < n -> nth i sidx 0 = nth j sidx 0 -> i = j).
  { intros i j Hi Hj E. apply (proj1 (NoDup_nth sidx 0) ND); auto; rewrite Lx; auto. }
  split; [|split; [|split]].
  - apply NeighborhoodFacts.NoDup_map_inj_in; auto.
  - apply Forall_map, Forall_forall. intros i Hi. apply Lt. auto.
  - intros i j Hi Hj Ne. apply in_map_iff in Hi, Hj. destruct Hi as (a & <- & Ia), Hj as (b & <- & Ib). rewrite <- Ins by auto. apply N3; auto. congruence.
  - intros j Hj. assert (Ij : In j sidx) by (eapply Permutation_in; [symmetry; exact Pm|apply in_seq; lia]).
    apply (In_nth _ _ 0) in Ij. destruct Ij as (b & Hb & <-). rewrite Lx in Hb. destruct (N4 b Hb) as (a & Ia & Ha).
    exists (nth a sidx 0). split; [now apply (in_map (fun j => nth j sidx 0))|]. apply Ins; auto.
Qed.

Section OnGrid.
  Context (eps : Q) (D : nat) (rows : list point) (ids : list nat) (B : nat) (cells : point) (g : grid).
  Hypothesis G : is_gpu_grid eps D rows ids B cells g.
  Hypothesis HD : supported D.
  Hypothesis Hne : ids <> [].
  Let n := length ids.
  Let nc := gnc g.

  Lemma keys_grouped i j k : i <= j <= k -> k < length (gskeys g) -> nth i (gskeys g) 0%Z = nth k (gskeys g) 0%Z -> nth j (gskeys g) 0%Z = nth i (gskeys g) 0%Z.
  Proof.
    intros Hij Hk E. rewrite (gg_skeys_length _ _ _ _ _ _ _ G) in Hk.
    assert (X : forall a b, a <= b -> b < n -> (nth b (gskeys g) 0 <= nth a (gskeys g) 0)%Z).
    { intros a b Hab Hb. destruct (Nat.eq_dec a b) as [->|Ne]; [lia|]. apply (gg_sorted _ _ _ _ _ _ _ G); [lia|auto]. }
    pose proof (X i j ltac:(lia) ltac:(unfold n; lia)). pose proof (X j k ltac:(lia) ltac:(auto)). lia.
  Qed.
  Lemma keys_nonempty : gskeys g <> [].
  Proof. intros E. pose proof (gg_skeys_length _ _ _ _ _ _ _ G) as L. rewrite E in L. destruct ids; [congruence|discriminate]. Qed.
  Lemma sbids_len : length (gsbids g) = n.
  Proof. rewrite (gg_sbids _ _ _ _ _ _ _ G), map_length. apply (gg_sidx_length _ _ _ _ _ _ _ G). Qed.
  Lemma key_cell j : j < n -> gpu_cell_from_key nc (nth j (gskeys g) 0%Z) = (Z.of_nat (nth j (gsbids g) 0), pcells eps D rows ids cells g j).
  Proof.
    intros Hj. destruct (pkeys eps D rows ids B cells g G [] [] eq_refl j Hj) as (-> & I & H0). apply gpu_decode; auto.
    apply (gg_nc_pos_all _ _ _ _ _ _ _ G).
  Qed.
  (** *** Poisson disk sampling *)
  Lemma op_poisson (active : skernel -> nat) warp (radii : list Q) ranges nbs (P : list point -> list Z -> list Z -> Prop) :
    (forall k, active k <> 0) -> warp <> 0 -> length radii = D -> (forall d, (d < D)%nat -> 0 < nth d radii 1)%Q ->
    (forall d, (d < D)%nat -> nth d radii 1 <= nth d cells 1)%Q -> delimits ranges nbs n ->
    (forall j i, In (j, i) nbs <-> inside_ellipsoid D radii (gspts g) (gsbids g) (gspts g) (gsbids g) j i) ->
    (forall sel, ellipsoid_sample D radii (gspts g) (gsbids g) sel ->
       P (map (fun i => nth i (gspts g) []) sel) (map (fun i => Z.of_nat (nth i (gsbids g) 0)) sel) (map Z.of_nat sel)) ->
    sampling_op active warp D (gspts g) (gsbids g) (gskeys g) nc nbs ranges 0 P.
  Proof.
    intros Ha Hw Lr Pr Hle Hd Hn HP. pose proof (gg_skeys_length _ _ _ _ _ _ _ G) as Lk. fold n in Lk. pose proof (gg_spts_length _ _ _ _ _ _ _ G) as Lp. fold n in Lp.
    pose proof sbids_len as Lb. pose proof keys_nonempty as Hk. pose proof (gg_nc_length _ _ _ _ _ _ _ G) as Ln. fold nc in Ln.
    assert (Pc : forall p d, d < D -> nth d (pcells eps D rows ids cells g p) 0%Z = gcell eps D rows ids cells nc (nth p (gsidx g) 0) d).
    { intros p d Hd'. unfold pcells. now rewrite QFacts.nth_map_seq. }
    apply (keys_poisson D nc (gskeys g) (gspts g) (gsbids g) (pcells eps D rows ids cells g)) with (small := radii) (large := radii); auto; try lia.
    - apply (gg_nc_pos_all _ _ _ _ _ _ _ G).
    - intros i j Hij Hj. apply (gg_sorted _ _ _ _ _ _ _ G); auto. unfold n in Lk. lia.
    - intros j Hj. destruct (pkeys eps D rows ids B cells g G [] [] eq_refl j ltac:(unfold n in Lk; lia)) as (E & I & _). auto.
    - now rewrite Lk.
    - intros j i H. now apply Hn.
    - intros j i H. now apply Hn.
    - intros j p d Hj Hd'. destruct Hj as (Lj & Lp' & Eb & Hc). rewrite Lb in Lj, Lp'. rewrite !Pc by lia.
      apply (closer_iff D radii) in Hc; auto. apply (closer_coord D radii _ _ d Lr Pr ltac:(lia)) in Hc. rewrite <- Z.abs_opp, Z.opp_sub_distr, Z.add_comm, Z.add_opp_r. unfold gcell. apply clamp_close.
      rewrite (gg_spts_nth _ _ _ _ _ _ _ G j Lj), (gg_spts_nth _ _ _ _ _ _ _ G p ltac:(unfold n in *; lia)) in Hc.
      rewrite (gg_sbids_nth _ _ _ _ _ _ _ G j Lj), (gg_sbids_nth _ _ _ _ _ _ _ G p ltac:(unfold n in *; lia)) in Eb. unfold lo_at. rewrite Eb.
      eapply close_cells; [apply (gg_cells_pos _ _ _ _ _ _ _ G); lia| |exact Hc]. unfold coord. pose proof (gg_cells_len _ _ _ _ _ _ _ G). rewrite (nth_indep _ 0%Q 1%Q) by lia. apply Hle. lia.
  Qed.

  (** The selection in terms of the points of the cloud. *)
  Lemma sample_original radii sel : ellipsoid_sample D radii (gspts g) (gsbids g) sel ->
    ellipsoid_sample D radii rows ids (map (fun j => nth j (gsidx g) 0) sel).
  Proof.
    intros H. pose proof sbids_len as Lb. apply (spread_original D radii radii rows ids (gspts g) (gsbids g)); auto.
    - apply (gg_sidx_perm _ _ _ _ _ _ _ G).
    - intros j Hj. apply (gg_spts_nth _ _ _ _ _ _ _ G j Hj).
    - intros j Hj. apply (gg_sbids_nth _ _ _ _ _ _ _ G j Hj).
  Qed.

  (** *** Averages *)
  Lemma op_average (active : skernel -> nat) warp ranges nbs (P : list point -> list Z -> list Z -> Prop) :
    (forall k, active k <> 0) -> warp <> 0 -> length ranges = n ->
    (forall A junk, Permutation A (firsts_of (gskeys g)) ->
       P (map (fun s => avg_point D (map (fun j => nth j (gspts g) []) (cell_points (gskeys g) s))) A)
         (map (fun s => Z.of_nat (nth s (gsbids g) 0)) A) [junk]) ->
    sampling_op active warp D (gspts g) (gsbids g) (gskeys g) nc nbs ranges 1 P.
  Proof.
    intros Ha Hw Lr HP. pose proof (gg_skeys_length _ _ _ _ _ _ _ G) as Lk. fold n in Lk. pose proof (gg_spts_length _ _ _ _ _ _ _ G) as Lp. fold n in Lp.
    pose proof sbids_len as Lb. pose proof keys_nonempty as Hk. pose proof (gg_nc_length _ _ _ _ _ _ _ G) as Ln. fold nc in Ln.
    unfold sampling_op. split; [lia|]. split; [auto|]. split; [lia|]. split; [lia|]. split; [auto|]. split; [lia|].
    apply unique_keys_ok; auto. intros A PA. cbv iota beta.
    assert (Hs : forall s, In s A -> In s (firsts_of (gskeys g))) by (intros s Hs; eapply Permutation_in; eauto).
    apply average_runs; auto; try lia.
    - intros E. subst A. apply Permutation_nil in PA. pose proof (firsts_count (gskeys g) Hk) as C. rewrite PA in C. cbn [length] in C.
      assert (0 <= tot (change (gskeys g)) (seq 0 (length (gskeys g) - 1)))%Z; [|lia]. apply tot_nonneg. intros i _. unfold change. destruct (_ =? _)%Z; lia.
    - intros s I. apply Hs, firsts_in in I. tauto.
    - intros s p I J. apply cell_points_in in J; auto; [tauto|intros i j k; apply keys_grouped].
    - intros junk. rewrite !map_map. cbn [fst snd].
      rewrite (map_ext_in (fun s => Z.quot (nth s (gskeys g) 0%Z) (zprod nc)) (fun s => Z.of_nat (nth s (gsbids g) 0))); auto.
      intros s I. apply Hs, firsts_in in I. destruct I as (I & _). destruct (pkeys eps D rows ids B cells g G [] [] eq_refl s ltac:(unfold n in *; lia)) as (-> & Ic & H0). fold nc.
      pose proof (radix_range _ _ Ic) as R. fold nc in R. pose proof (gg_prod_pos _ _ _ _ _ _ _ G) as Pz. fold nc in Pz. rewrite Z.quot_div_nonneg by nia.
      symmetry. apply Z.div_unique with (r := radix nc (pcells eps D rows ids cells g s)); lia.
  Qed.
End OnGrid.
