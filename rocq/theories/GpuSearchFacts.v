(** The CUDA neighbor search on the grid of a cloud. *)
From Coq Require Import List Arith ZArith NArith QArith Qround Lia Lqa Bool Permutation.
From Verif Require Import Tensor TensorFacts Spec PointCloud SpecCloud History PointCloudFacts QFacts Grid SpecGrid GridFacts Neighbors SpecNeighbors NeighborFacts
  Cuda CudaFacts AddFacts GpuGrid GpuGridFacts GpuScan SpecGpu GpuNeighbors GpuCountFacts SlotFacts GpuStoreFacts GpuNeighborFacts GpuOpFacts GpuRangeFacts GpuGeometry.
Import ListNotations.
Local Open Scope Z_scope.

(** ** The search in terms of keys and cells *)
Section KeySearch.
  Context (D B : nat) (nc keys : list Z) (pts : list point) (sbids : list nat) (pcell : nat -> list Z).
  Context (samples : list point) (cids : list nat) (skeys : list Z) (scell : nat -> list Z).
  Let n := length keys.
  Let N := length samples.
  Let f j := gpu_ds_of_key nc (nth j keys 0).
  Hypothesis HD : supported D.
  Hypothesis Lnc : length nc = D.
  Hypothesis Hpos : forall x, In x nc -> 1 <= x.
  Hypothesis Lpts : length pts = n.
  Hypothesis Hkeys : forall j, (j < n)%nat -> nth j keys 0 = Z.of_nat (nth j sbids 0%nat) * zprod nc + radix nc (pcell j) /\
    in_cells nc (pcell j) /\ 0 <= Z.of_nat (nth j sbids 0%nat).
  Hypothesis Hrange : forall j, (j < n)%nat -> 0 <= nth j keys 0 < Z.of_nat B * zprod nc.
  Hypothesis Hsorted : forall j k, (j < k)%nat -> (k < n)%nat -> nth k keys 0 <= nth j keys 0.
  Hypothesis Hsk : forall s, (s < N)%nat -> nth s skeys 0 = Z.of_nat (nth s cids 0%nat) * zprod nc + radix nc (scell s).
  Hypothesis Hsc : forall s, (s < N)%nat -> in_cells nc (scell s).
  Hypothesis Hsb : forall s, (s < N)%nat -> (nth s cids 0 < B)%nat.

  Definition ds_of_keys : list (Z * Z) :=
    map (fun d => ds_fold f n d n) (seq 0 (Z.to_nat (Z.of_nat B * nth 0 nc 0 * nth 1 nc 0))).

  Lemma keys_nc_form : exists n0 n1 rest, nc = n0 :: n1 :: rest.
  Proof. unfold supported in HD. destruct nc as [|n0 [|n1 rest]]; cbn in Lnc; try lia. eauto. Qed.

  Lemma keys_ds_ok n0 n1 rest : nc = n0 :: n1 :: rest -> ds_ok f n (Z.of_nat B * n0 * n1) ds_of_keys.
  Proof.
    intros E. pose proof Hpos as Hp. rewrite E in Hp.
    assert (P0 : 1 <= n0) by (apply Hp; left; auto). assert (P1 : 1 <= n1) by (apply Hp; right; left; auto).
    assert (PR : 1 <= zprod rest) by (apply zprod_pos; intros; apply Hp; right; right; auto).
    assert (Ef : forall j, (j < n)%nat -> f j = nth j keys 0 / zprod rest).
    { intros j Hj. unfold f, gpu_ds_of_key. rewrite E. cbn [skipn]. pose proof (Hrange j Hj). apply Z.quot_div_nonneg; lia. }
    intros d Hd. unfold ds_of_keys. rewrite E. cbn [nth].
    destruct (ds_fold_spec f n (Z.to_nat (Z.of_nat B * n0 * n1))) with (d := Z.to_nat d) as (F1 & F2 & F3 & F4).
    { intros j k Hjk Hk. rewrite (Ef j), (Ef k) by lia. apply Z.div_le_mono; [lia|]. apply Hsorted; lia. }
    { intros j Hj. rewrite (Ef j Hj). pose proof (Hrange j Hj) as R. rewrite E, !zprod_cons in R. split; [apply Z.div_pos; lia|].
      rewrite Z2Nat.id by nia. apply Z.div_lt_upper_bound; lia. }
    exists (fst (ds_fold f n (Z.to_nat d) n)), (snd (ds_fold f n (Z.to_nat d) n)). rewrite Z2Nat.id in F1 by lia. split; [|auto].
    unfold rdz, rd. destruct (Z.ltb_spec d 0); [lia|]. rewrite nth_error_map.
    rewrite (nth_error_nth' (seq 0 (Z.to_nat (Z.of_nat B * n0 * n1))) (Z.to_nat d) 0%nat) by (rewrite seq_length; lia).
    rewrite seq_nth by lia. cbn [option_map Nat.add]. now rewrite <- surjective_pairing.
  Qed.

  (** Every offset is fine, and its range holds the points it reaches. *)
  Lemma keys_offsets n0 n1 rest s off : nc = n0 :: n1 :: rest -> (s < N)%nat -> In off (offsets D) ->
    search_range D nc keys ds_of_keys off (nth s skeys 0) <> None /\
    0 <= fst (range_of D keys nc ds_of_keys skeys s off) /\ snd (range_of D keys nc ds_of_keys skeys s off) <= Z.of_nat n /\
    forall j, (j < n)%nat -> (in_range (range_of D keys nc ds_of_keys skeys s off) j = true <->
      ranged n0 n1 rest keys (Z.of_nat (nth s cids 0%nat)) (scell s) off j).
  Proof.
    intros E Hs Ho. apply offsets_in in Ho; [|unfold supported in HD; lia]. destruct Ho as (Lo & Hsm & Hz).
    assert (Eds : f = fun j => gpu_ds_of_key (n0 :: n1 :: rest) (nth j keys 0)) by (unfold f; now rewrite E).
    assert (LD : length (n0 :: n1 :: rest) = D) by (now rewrite <- E).
    destruct (search_range_ok n0 n1 rest keys (Z.of_nat B) ds_of_keys) with (b := Z.of_nat (nth s cids 0%nat)) (a := scell s) (off := off) as (o & Eo & R).
    - intros x Hx. apply Hpos. now rewrite E.
    - intros j Hj. rewrite <- E. now apply Hrange.
    - apply Hsorted.
    - rewrite <- Eds. now apply keys_ds_ok with (rest := rest).
    - pose proof (Hsb s Hs). lia.
    - rewrite <- E. auto.
    - now rewrite LD.
    - now rewrite LD.
    - rewrite LD, <- E in Eo. rewrite <- (Hsk s Hs) in Eo. unfold range_of. rewrite Eo.
      destruct R as (R1 & R2 & R3). split; [discriminate|]. split; [auto|]. split; [auto|].
      intros j Hj. rewrite <- (R3 j Hj). unfold in_range. lia.
  Qed.
  Lemma keys_good : Forall (good D samples pts keys nc ds_of_keys skeys) (offsets D).
  Proof.
    destruct keys_nc_form as (n0 & n1 & rest & E). apply Forall_forall. intros off Ho s Hs.
    destruct (keys_offsets n0 n1 rest s off E Hs Ho) as (H1 & H2 & H3 & _). split; [exact H1|]. split; [exact H2|]. now rewrite Lpts.
  Qed.

  Context (near : point -> point -> bool).
  Lemma keys_found_iff n0 n1 rest s off j : nc = n0 :: n1 :: rest -> (s < N)%nat -> In off (offsets D) ->
    (In j (found_in D samples pts keys nc ds_of_keys near skeys s off) <->
     (j < n)%nat /\ ranged n0 n1 rest keys (Z.of_nat (nth s cids 0%nat)) (scell s) off j /\ near (nth s samples []) (nth j pts []) = true).
  Proof.
    intros E Hs Ho. destruct (keys_offsets n0 n1 rest s off E Hs Ho) as (_ & _ & _ & R).
    unfold found_in. rewrite filter_In, in_seq, andb_true_iff, Lpts. split.
    - intros (H1 & H2 & H3). split; [lia|]. split; [apply R; auto; lia|auto].
    - intros (H1 & H2 & H3). split; [lia|]. split; [apply R; auto|auto].
  Qed.

  Hypothesis Hlast : (D <= 3)%nat \/ 3 <= nth (D - 1) nc 0.
  Lemma keys_found s : (s < N)%nat ->
    let F := found_all D samples pts keys nc ds_of_keys near skeys s (offsets D) in
    NoDup F /\
    (forall j, In j F -> (j < n)%nat /\ nth j sbids 0%nat = nth s cids 0%nat /\ near (nth s samples []) (nth j pts []) = true /\
       Z.abs (nth 0 (pcell j) 0 - nth 0 (scell s) 0) <= 1 /\ Z.abs (nth 1 (pcell j) 0 - nth 1 (scell s) 0) <= 1) /\
    (forall j, (j < n)%nat -> nth j sbids 0%nat = nth s cids 0%nat -> near (nth s samples []) (nth j pts []) = true ->
       (forall d, (d < D)%nat -> Z.abs (nth d (pcell j) 0 - nth d (scell s) 0) <= 1) -> In j F).
  Proof.
    intros Hs. destruct keys_nc_form as (n0 & n1 & rest & E).
    assert (LD : length (n0 :: n1 :: rest) = D) by (now rewrite <- E).
    assert (D2 : (2 <= D)%nat) by (unfold supported in HD; lia).
    assert (Hk : forall j, (j < length keys)%nat -> nth j keys 0 = Z.of_nat (nth j sbids 0%nat) * zprod (n0 :: n1 :: rest) + radix (n0 :: n1 :: rest) (pcell j) /\
       in_cells (n0 :: n1 :: rest) (pcell j) /\ 0 <= Z.of_nat (nth j sbids 0%nat)).
    { intros j Hj. rewrite <- E. apply Hkeys. auto. }
    assert (Hnc : forall x, In x (n0 :: n1 :: rest) -> 1 <= x).
    { intros x Hx. apply Hpos. now rewrite E. }
    assert (Hl' : (length (n0 :: n1 :: rest) <= 3)%nat \/ 3 <= nth (length (n0 :: n1 :: rest) - 1) (n0 :: n1 :: rest) 0).
    { rewrite LD, <- E. exact Hlast. }
    assert (Ia : in_cells (n0 :: n1 :: rest) (scell s)) by (rewrite <- E; auto).
    cbv zeta. split; [|split].
    - apply nodup_flat_map; [apply offsets_NoDup| |].
      + intros off _. apply TensorFacts.NoDup_filter, seq_NoDup.
      + intros off off' j Ho Ho' J J'.
        apply (keys_found_iff n0 n1 rest) in J; auto. apply (keys_found_iff n0 n1 rest) in J'; auto. destruct J as (H1 & J & _), J' as (_ & J' & _).
        eapply (ranged_unique n0 n1 rest keys (fun j => Z.of_nat (nth j sbids 0%nat)) pcell Hnc Hk Hl'); [exact H1| | | | |exact J|exact J']; [lia|auto| |].
        * rewrite LD. apply offsets_in; auto.
        * rewrite LD. apply offsets_in; auto.
    - intros j Hj. unfold found_all in Hj. rewrite in_flat_map in Hj. destruct Hj as (off & Ho & Hj). apply (keys_found_iff n0 n1 rest) in Hj; auto. destruct Hj as (H1 & H2 & H3).
      apply (ranged_same n0 n1 rest keys (fun j => Z.of_nat (nth j sbids 0%nat)) pcell Hnc Hk) in H2; [|exact H1|lia]. destruct H2 as (X & X0 & X1).
      apply offsets_in in Ho; auto. destruct Ho as (Lo & Hsm & _). apply in_cells_nth in Ia. destruct Ia as [La _].
      rewrite shifted_nth in X0, X1 by lia.
      pose proof (Hsm (nth 0 off 0) ltac:(apply nth_In; lia)). pose proof (Hsm (nth 1 off 0) ltac:(apply nth_In; lia)).
      split; auto. split; [lia|]. split; auto. lia.
    - intros j H1 H2 H3 Hn. unfold found_all. rewrite in_flat_map.
      destruct (ranged_one n0 n1 rest keys (fun j => Z.of_nat (nth j sbids 0%nat)) pcell Hnc Hk Hl' (Z.of_nat (nth s cids 0%nat)) (scell s) j) as (I & U); auto; try lia.
      { intros d Hd. apply Hn. lia. }
      rewrite LD in I, U. eexists. split; [apply offsets_in; [auto|exact I]|].
      apply (keys_found_iff n0 n1 rest); auto; [apply offsets_in; auto|]. split; auto. split; auto. apply U; auto.
  Qed.
End KeySearch.

Section GridSearch.
  Context (eps : Q) (D : nat) (rows : list point) (ids : list nat) (B : nat) (cells : point) (g : grid).
  Hypothesis G : is_gpu_grid eps D rows ids B cells g.
  Hypothesis HD : supported D.
  Hypothesis Hne : ids <> [].
  Context (crows : list point) (cids : list nat).
  Hypothesis HL : length crows = length cids.
  Hypothesis Hcids : Forall (fun b => (b < B)%nat) cids.
  Let nc := gnc g.
  Let n := length ids.
  Let N := length crows.
  Let f j := gpu_ds_of_key nc (nth j (gskeys g) 0).

  Definition ds_of_grid : list (Z * Z) :=
    map (fun d => ds_fold f (length (gskeys g)) d (length (gskeys g))) (seq 0 (Z.to_nat (Z.of_nat B * nth 0 nc 0 * nth 1 nc 0))).
  Definition sl_of_grid : list point := map (fun lo => map (fun d => (coord lo d / coord (gcells g) d)%Q) (seq 0 D)) (amin (gbox g)).
  Definition scell (s d : nat) : Z :=
    Z.min (Z.max (raw_cell (lo_of eps D rows ids (nth s cids 0%nat)) cells (nth s crows []) d) 0) (nth d nc 0 - 1).
  Definition scells (s : nat) : list Z := map (scell s) (seq 0 D).
  Definition skeys_of : list Z :=
    map (fun i => gpu_key nc (gpu_cell D (nth (nth i cids 0%nat) sl_of_grid []) (map Qinv (gcells g)) nc (nth i crows [])) (nth i cids 0%nat)) (seq 0 N).
  Definition pcells (j : nat) : list Z := map (gcell eps D rows ids cells nc (nth j (gsidx g) 0%nat)) (seq 0 D).

  Lemma nc_form : exists n0 n1 rest, nc = n0 :: n1 :: rest.
  Proof. pose proof (gg_nc_length _ _ _ _ _ _ _ G) as L. unfold supported in HD. fold nc in L. destruct nc as [|n0 [|n1 rest]]; cbn in L; try lia. eauto. Qed.
  Lemma sl_length : length sl_of_grid = B.
  Proof. unfold sl_of_grid. now rewrite map_length, (gg_min _ _ _ _ _ _ _ G), map_length, seq_length. Qed.
  Lemma cid_lt s : (s < N)%nat -> (nth s cids 0 < B)%nat.
  Proof. intros Hs. rewrite Forall_forall in Hcids. apply Hcids, nth_In. unfold N in Hs. lia. Qed.
  Lemma B_pos : (0 < B)%nat.
  Proof. destruct ids as [|b0 ids'] eqn:E; [congruence|]. pose proof (gg_id_lt _ _ _ _ _ _ _ G 0%nat ltac:(cbn; lia)). lia. Qed.

  Lemma scells_in s : in_cells nc (scells s).
  Proof.
    unfold scells. pose proof (gg_nc_length _ _ _ _ _ _ _ G) as L. fold nc in L. rewrite <- L. apply in_cells_seq. intros d Hd.
    pose proof (gg_nc_pos _ _ _ _ _ _ _ G d ltac:(lia)). fold nc in H. unfold scell. lia.
  Qed.
  Lemma skeys_nth s : (s < N)%nat -> nth s skeys_of 0 = Z.of_nat (nth s cids 0%nat) * zprod nc + radix nc (scells s).
  Proof.
    intros Hs. unfold skeys_of. rewrite QFacts.nth_map_seq by auto.
    rewrite gpu_key_radix by (unfold gpu_cell; rewrite map_length, seq_length; symmetry; apply (gg_nc_length _ _ _ _ _ _ _ G)).
    do 2 f_equal. unfold gpu_cell, scells. apply map_ext_in. intros d Hd. apply in_seq in Hd. unfold scell. do 2 f_equal.
    pose proof (cid_lt s Hs) as Hb. unfold sl_of_grid. rewrite (gg_min _ _ _ _ _ _ _ G), map_map, QFacts.nth_map_seq by auto.
    rewrite (gg_cells _ _ _ _ _ _ _ G).
    transitivity (Qfloor (coord (nth s crows []) d * / coord cells d - coord (lo_of eps D rows ids (nth s cids 0%nat)) d / coord cells d)).
    - f_equal. f_equal.
      + f_equal. unfold coord. rewrite (nth_indep _ 0%Q (/ 0)%Q) by (rewrite map_length, (gg_cells_len _ _ _ _ _ _ _ G); lia). now rewrite map_nth.
      + f_equal. unfold coord at 1. rewrite QFacts.nth_map_seq by lia. reflexivity.
    - apply gpu_floor. apply (gg_cells_pos _ _ _ _ _ _ _ G). lia.
  Qed.

  Lemma pkeys j : (j < n)%nat -> nth j (gskeys g) 0 = Z.of_nat (nth j (gsbids g) 0%nat) * zprod nc + radix nc (pcells j) /\ in_cells nc (pcells j) /\ 0 <= Z.of_nat (nth j (gsbids g) 0%nat).
  Proof.
    intros Hj. rewrite (gg_skeys_nth _ _ _ _ _ _ _ G j Hj), (gg_sbids_nth _ _ _ _ _ _ _ G j Hj).
    pose proof (gg_sidx_lt _ _ _ _ _ _ _ G j Hj) as Hi. split; [apply (gg_key _ _ _ _ _ _ _ G); auto|]. split; [apply (gg_cells_in _ _ _ _ _ _ _ G)|lia].
  Qed.
  Lemma pkeys_range j : (j < length (gskeys g))%nat -> 0 <= nth j (gskeys g) 0 < Z.of_nat B * zprod nc.
  Proof.
    intros Hj. rewrite (gg_skeys_length _ _ _ _ _ _ _ G) in Hj. rewrite (gg_skeys_nth _ _ _ _ _ _ _ G j Hj).
    apply (gg_key_range _ _ _ _ _ _ _ G). apply (gg_sidx_lt _ _ _ _ _ _ _ G). auto.
  Qed.
  Lemma pkeys_sorted j k : (j < k)%nat -> (k < length (gskeys g))%nat -> nth k (gskeys g) 0 <= nth j (gskeys g) 0.
  Proof. intros Hjk Hk. rewrite (gg_skeys_length _ _ _ _ _ _ _ G) in Hk. apply (gg_sorted _ _ _ _ _ _ _ G); auto. Qed.

  Lemma get_DS_gpu_ok active warp (P : grid_ds -> Prop) : active <> 0%nat -> warp <> 0%nat ->
    P (GridDS B (nth 0 nc 0) (nth 1 nc 0) ds_of_grid) -> get_DS_gpu active warp g P.
  Proof.
    intros Ha Hw HP. unfold get_DS_gpu. rewrite (gg_ds _ _ _ _ _ _ _ G). rewrite (ic_bsize _ _ _ _ _ _ _ (gg_cloud _ _ _ _ _ _ _ G)).
    apply build_grid_ds_runs; auto.
    - unfold nc in *. now rewrite (gg_nc_length _ _ _ _ _ _ _ G).
    - apply B_pos.
    - intros E. pose proof (gg_skeys_length _ _ _ _ _ _ _ G) as L. rewrite E in L. destruct ids; [congruence|discriminate].
    - apply (gg_nc_pos_all _ _ _ _ _ _ _ G).
    - apply pkeys_range.
    - apply pkeys_sorted.
  Qed.

  Lemma ds_of_grid_keys : ds_of_grid = ds_of_keys B nc (gskeys g).
  Proof. reflexivity. Qed.

  (** Every offset is fine, and its range holds the points it reaches. *)
  Lemma offsets_range n0 n1 rest s off : nc = n0 :: n1 :: rest -> (s < N)%nat -> In off (offsets D) ->
    search_range D nc (gskeys g) ds_of_grid off (nth s skeys_of 0) <> None /\
    0 <= fst (range_of D (gskeys g) nc ds_of_grid skeys_of s off) /\ snd (range_of D (gskeys g) nc ds_of_grid skeys_of s off) <= Z.of_nat n /\
    forall j, (j < n)%nat -> (in_range (range_of D (gskeys g) nc ds_of_grid skeys_of s off) j = true <->
      ranged n0 n1 rest (gskeys g) (Z.of_nat (nth s cids 0%nat)) (scells s) off j).
  Proof.
    intros E Hs Ho. pose proof (gg_skeys_length _ _ _ _ _ _ _ G) as Lk. fold n in Lk. rewrite <- Lk.
    apply (keys_offsets D B nc (gskeys g) (gspts g) crows cids skeys_of scells); auto.
    - apply (gg_nc_length _ _ _ _ _ _ _ G).
    - apply (gg_nc_pos_all _ _ _ _ _ _ _ G).
    - rewrite Lk. apply (gg_spts_length _ _ _ _ _ _ _ G).
    - apply pkeys_range.
    - apply pkeys_sorted.
    - apply skeys_nth.
    - intros; apply scells_in.
    - apply cid_lt.
  Qed.

  Context (near : point -> point -> bool).
  (** What is needed of the points found: closeness implies adjacent cells. *)
  Hypothesis Hclose : forall s j d, (s < N)%nat -> (j < n)%nat -> (d < D)%nat -> nth j (gsbids g) 0%nat = nth s cids 0%nat ->
    near (nth s crows []) (nth j (gspts g) []) = true -> Z.abs (nth d (pcells j) 0 - nth d (scells s) 0) <= 1.
  Hypothesis Hlast : (D <= 3)%nat \/ 3 <= nth (D - 1) nc 0.

  Lemma found_all_ok s : (s < N)%nat ->
    let F := found_all D crows (gspts g) (gskeys g) nc ds_of_grid near skeys_of s (offsets D) in
    NoDup F /\ forall j, In j F <-> (j < n)%nat /\ nth j (gsbids g) 0%nat = nth s cids 0%nat /\ near (nth s crows []) (nth j (gspts g) []) = true.
  Proof.
    intros Hs. pose proof (gg_skeys_length _ _ _ _ _ _ _ G) as Lk. fold n in Lk.
    destruct (keys_found D B nc (gskeys g) (gspts g) (gsbids g) pcells crows cids skeys_of scells) with (near := near) (s := s) as (ND & F1 & F2); auto.
    - apply (gg_nc_length _ _ _ _ _ _ _ G).
    - apply (gg_nc_pos_all _ _ _ _ _ _ _ G).
    - rewrite Lk. apply (gg_spts_length _ _ _ _ _ _ _ G).
    - rewrite Lk. apply pkeys.
    - apply pkeys_range.
    - apply pkeys_sorted.
    - apply skeys_nth.
    - intros; apply scells_in.
    - apply cid_lt.
    - rewrite Lk in F1, F2. split; [exact ND|]. intros j. split.
      + intros Hj. destruct (F1 j Hj) as (H1 & H2 & H3 & _). auto.
      + intros (H1 & H2 & H3). apply F2; auto.
  Qed.
End GridSearch.

(** ** Closeness *)
Lemma qsum_ext {A} (f g : A -> Q) l : (forall d, In d l -> f d == g d)%Q -> (fold_right Qplus 0 (map f l) == fold_right Qplus 0 (map g l))%Q.
Proof.
  induction l as [|x l IH]; intros H; cbn; [reflexivity|]. rewrite (H x (or_introl eq_refl)), IH; [reflexivity|]. intros; apply H; right; auto.
Qed.
Lemma qsum_ge {A} (f : A -> Q) l d : (forall x, In x l -> 0 <= f x)%Q -> In d l -> (f d <= fold_right Qplus 0 (map f l))%Q.
Proof.
  intros H. assert (P : forall l', incl l' l -> (0 <= fold_right Qplus 0 (map f l'))%Q).
  { induction l' as [|x l' IH]; intros I; cbn; [lra|]. pose proof (H x (I x (or_introl eq_refl))). assert (0 <= fold_right Qplus 0 (map f l'))%Q by (apply IH; intros y Hy; apply I; right; auto). lra. }
  intros Hd. assert (R : forall l', incl l' l -> In d l' -> (f d <= fold_right Qplus 0 (map f l'))%Q).
  { induction l' as [|x l' IH]; intros I; [intros []|]. intros [->|Hd']; cbn.
    - assert (0 <= fold_right Qplus 0 (map f l'))%Q by (apply P; intros y Hy; apply I; right; auto). lra.
    - pose proof (H x (I x (or_introl eq_refl))). assert (f d <= fold_right Qplus 0 (map f l'))%Q by (apply IH; auto; intros y Hy; apply I; right; auto). lra. }
  apply R; auto. apply incl_refl.
Qed.
Lemma closer_iff D (radii : list Q) s p : length radii = D -> (forall d, (d < D)%nat -> 0 < nth d radii 1)%Q ->
  (closer D (map Qinv radii) s p = true <->
   (fold_right Qplus 0 (map (fun d => let x := (nth d p 0 - nth d s 0) / nth d radii 1 in x * x) (seq 0 D)) < 1)%Q).
Proof.
  intros L Hp. unfold closer. rewrite Qltb_lt.
  assert (E : (fold_right Qplus 0 (map (fun d => let x := ((coord s d - coord p d) * coord (map Qinv radii) d) in (x * x)) (seq 0 D)) ==
     fold_right Qplus 0 (map (fun d => let x := (nth d p 0 - nth d s 0) / nth d radii 1 in x * x) (seq 0 D)))%Q).
  { apply qsum_ext. intros d Hd. apply in_seq in Hd. cbv zeta. unfold coord.
    rewrite (nth_indep (map Qinv radii) 0%Q (/ 1)%Q) by (rewrite map_length; lia). rewrite (map_nth Qinv). specialize (Hp d ltac:(lia)). field. lra. }
  rewrite E. reflexivity.
Qed.
Lemma closer_coord D (radii : list Q) s p d : length radii = D -> (forall d, (d < D)%nat -> 0 < nth d radii 1)%Q -> (d < D)%nat ->
  closer D (map Qinv radii) s p = true -> (Qabs.Qabs (nth d p 0 - nth d s 0) < nth d radii 1)%Q.
Proof.
  intros L Hp Hd H. apply closer_iff in H; auto. cbv zeta in H.
  assert (T : ((nth d p 0 - nth d s 0) / nth d radii 1 * ((nth d p 0 - nth d s 0) / nth d radii 1) < 1)%Q).
  { eapply Qle_lt_trans; [|exact H]. apply (qsum_ge (fun d => ((nth d p 0 - nth d s 0) / nth d radii 1 * ((nth d p 0 - nth d s 0) / nth d radii 1))%Q)).
    - intros x _. nra.
    - apply in_seq. lia. }
  specialize (Hp d Hd). set (r := nth d radii 1%Q) in *. set (x := (nth d p 0 - nth d s 0)%Q) in *. clearbody r x.
  assert (Ex : (x == x / r * r)%Q) by (field; lra). set (q := (x / r)%Q) in *. clearbody q.
  assert (Hq : (-1 < q /\ q < 1)%Q) by (split; nra). apply Qabs.Qabs_Qlt_condition. rewrite Ex. split; nra.
Qed.
Lemma close_cells (cells : point) lo (p q : point) d (r : Q) : (0 < coord cells d)%Q -> (r <= coord cells d)%Q ->
  (Qabs.Qabs (nth d p 0 - nth d q 0) < r)%Q -> Z.abs (raw_cell lo cells p d - raw_cell lo cells q d) <= 1.
Proof.
  intros Hc Hr H. unfold raw_cell. apply floor_close. apply Qabs.Qabs_Qlt_condition in H. unfold coord in *.
  set (c := nth d cells 0%Q) in *. set (x := nth d p 0%Q) in *. set (y := nth d q 0%Q) in *. set (l := nth d lo 0%Q) in *. clearbody c x y l.
  assert (E : ((x - l) / c - (y - l) / c == (x - y) / c)%Q) by (field; lra).
  apply Qabs.Qabs_Qlt_condition. rewrite E. split.
  - apply Qlt_shift_div_l; lra.
  - apply Qlt_shift_div_r; lra.
Qed.
