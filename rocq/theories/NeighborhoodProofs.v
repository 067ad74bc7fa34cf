(** Proofs of the neighborhood object properties (C19-C20). The statements are
    copied verbatim into PropertiesNeighborhood.v. *)
From Coq Require Import List Arith ZArith QArith Qround Lia Lqa Bool Permutation Sorted.
From Verif Require Import Tensor TensorFacts Spec PointCloud SpecCloud History PointCloudFacts QFacts
  Grid SpecGrid GridFacts GridProofs Neighbors SpecNeighbors NeighborFacts NeighborProofs Neighborhood
  NeighborhoodFacts.
Import ListNotations.
Local Open Scope nat_scope.

(** C19. The original ids of a neighborhood, and the output of
    compute_neighborhoods, index the caller's points: the pair (j, i) occurs
    (exactly once) iff point [j] of the caller's cloud is closer than the
    radius to center [i]. With [return_sorted_ids] the first column indexes
    the sorted points of the grid. *)
Lemma C19_original_ids_partial_proof :
  forall eps D rows ids B cs g ceps crows cids CB cp radii max_neighbors,
    usable eps D rows ids B cs g -> cloud GPU ceps D crows cids CB cp ->
    cids <> [] -> Forall (fun b => b < B) cids -> radii_match D radii cs ->
    let r := nth 0 (all_dims D radii) 0%Q in
    (exists n, snd (mk_nbh (find_neighbors_tf GPU) g radii (Some cp) max_neighbors) = Ok n /\
       NoDup (norig n) /\ forall j i, In (j, i) (norig n) <-> near D r rows ids crows cids j i) /\
    (exists nbs rg, snd (compute_neighborhoods (find_neighbors_tf GPU) g radii (Some cp) max_neighbors false) = Ok (nbs, rg) /\
       NoDup nbs /\ forall j i, In (j, i) nbs <-> near D r rows ids crows cids j i) /\
    (exists nbs rg, snd (compute_neighborhoods (find_neighbors_tf GPU) g radii (Some cp) max_neighbors true) = Ok (nbs, rg) /\
       NoDup nbs /\ forall j i, In (j, i) nbs <-> near D r (gspts g) (gsbids g) crows cids j i).
Proof.
  intros eps D rows ids B cs g ceps crows cids CB cp radii mx Hu Hc Hne HcB Hr r.
  destruct (mk_nbh_tf eps D rows ids B cs g ceps crows cids CB cp radii mx (Some cp) Hu Hc Hne HcB Hr (or_introl eq_refl))
    as (n & E & _ & _ & _ & _ & N1 & N2 & N3 & _ & Ec).
  pose proof (grid_for_is _ _ _ _ _ _ _ _ (us_sizes _ _ _ _ _ _ _ Hu) (us_grid _ _ _ _ _ _ _ Hu)) as G.
  destruct (to_original_spec _ _ _ _ _ _ _ _ r crows cids (nnbs n) G N1 N3) as [O1 O2]. rewrite <- N2 in O1, O2.
  split; [exists n; auto|]. split.
  - exists (norig n), (nranges n). rewrite Ec. auto.
  - exists (nnbs n), (nranges n). rewrite Ec. auto.
Qed.

(** The same when the centers are not given: they are the sorted points of the
    grid, so the second column indexes the sorted points. *)
Lemma C19_self_partial_proof :
  forall eps D rows ids B cs g radii max_neighbors,
    usable eps D rows ids B cs g -> ids <> [] -> radii_match D radii cs ->
    let r := nth 0 (all_dims D radii) 0%Q in
    (exists n, snd (mk_nbh (find_neighbors_tf GPU) g radii None max_neighbors) = Ok n /\
       pts (nsampled n) = gspts g /\ bids (nsampled n) = gsbids g /\
       NoDup (norig n) /\ forall j i, In (j, i) (norig n) <-> near D r rows ids (gspts g) (gsbids g) j i) /\
    (exists nbs rg, snd (compute_neighborhoods (find_neighbors_tf GPU) g radii None max_neighbors false) = Ok (nbs, rg) /\
       NoDup nbs /\ forall j i, In (j, i) nbs <-> near D r rows ids (gspts g) (gsbids g) j i).
Proof.
  intros eps D rows ids B cs g radii mx Hu Hne Hr r.
  pose proof (grid_for_is _ _ _ _ _ _ _ _ (us_sizes _ _ _ _ _ _ _ Hu) (us_grid _ _ _ _ _ _ _ Hu)) as G.
  destruct (sorted_cloud_ok _ _ _ _ _ _ _ _ G) as (p & Ep & Ep' & Hp).
  specialize (Hp GPU eps).
  assert (Hne' : gsbids g <> []).
  { intros E. apply Hne. apply length_zero_iff_nil. rewrite <- (sbids_length _ _ _ _ _ _ _ _ G), E. reflexivity. }
  pose proof (cloud_is _ _ _ _ _ _ _ Hp) as Hpi.
  destruct (mk_nbh_tf eps D rows ids B cs g eps (gspts g) (gsbids g) B p radii mx None Hu Hp Hne' (ic_ids _ _ _ _ _ _ _ Hpi) Hr
     (or_intror (conj eq_refl Ep))) as (n & E & _ & Es & _ & _ & N1 & N2 & N3 & _ & Ec).
  destruct (to_original_spec _ _ _ _ _ _ _ _ r (gspts g) (gsbids g) (nnbs n) G N1 N3) as [O1 O2]. rewrite <- N2 in O1, O2.
  split.
  - exists n. rewrite Es. split; [exact E|]. split; [apply (ic_pts _ _ _ _ _ _ _ Hpi)|]. split; [apply (ic_bids _ _ _ _ _ _ _ Hpi)|]. auto.
  - exists (norig n), (nranges n). rewrite Ec. auto.
Qed.

Example C19_original_ids_partial_ex_proof :
  exists g n, grid_for GPU (1#1000) 2 exN_rows exN_ids 2 [1#1] g /\
    snd (mk_nbh (find_neighbors_tf GPU) g [1#1] (Some (seg 2 exN_centers exN_cids 2)) 0) = Ok n /\
    norig n = [(0,0);(1,1);(4,4)] /\ nnbs n = [(4,0);(5,1);(0,4)].
Proof.
  destruct (mk_grid GPU (1#1000) (seg 2 exN_rows exN_ids 2) [1#1]) as [g|] eqn:Eg; [|vm_compute in Eg; discriminate].
  exists g. eexists. split.
  { eapply grid_new; [|exact Eg]. apply seg_cloud; repeat constructor. }
  vm_compute in Eg. inversion Eg; subst g. clear Eg.
  split; [vm_compute; reflexivity|]. split; reflexivity.
Qed.

Example C19_self_partial_ex_proof :
  exists g n, grid_for GPU (1#1000) 2 exN_rows exN_ids 2 [1#1] g /\ gsidx g = [4;5;3;2;0;1] /\
    snd (mk_nbh (find_neighbors_tf GPU) g [1#1] None 0) = Ok n /\
    norig n = [(4,0);(5,0);(4,1);(5,1);(3,2);(2,3);(0,4);(1,4);(0,5);(1,5)].
Proof.
  destruct (mk_grid GPU (1#1000) (seg 2 exN_rows exN_ids 2) [1#1]) as [g|] eqn:Eg; [|vm_compute in Eg; discriminate].
  exists g. eexists. split.
  { eapply grid_new; [|exact Eg]. apply seg_cloud; repeat constructor. }
  vm_compute in Eg. inversion Eg; subst g. clear Eg.
  split; [vm_compute; reflexivity|]. split; [vm_compute; reflexivity|]. reflexivity.
Qed.

Lemma fold_Qplus_ext (f h : nat -> Q) l : (forall d, f d == h d)%Q ->
  (fold_right Qplus 0 (map f l) == fold_right Qplus 0 (map h l))%Q.
Proof. intros H. induction l; cbn; [reflexivity|]. now rewrite H, IHl. Qed.

Lemma dist2_sym D p q : (dist2 D p q == dist2 D q p)%Q.
Proof. unfold dist2. apply fold_Qplus_ext. intros d. ring. Qed.

Lemma near_sym D r rows ids crows cids j i :
  near D r rows ids crows cids j i <-> near D r crows cids rows ids i j.
Proof. unfold near. rewrite dist2_sym. intuition. Qed.

Lemma near_radius D r r' rows ids crows cids j i : (r == r')%Q ->
  near D r rows ids crows cids j i -> near D r' rows ids crows cids j i.
Proof. unfold near. intros E (H1 & H2 & H3 & H4). rewrite E in H4. auto. Qed.

(** C20. The transposed neighborhood relates the same pairs, exchanged. *)
Lemma C20_transpose_partial_proof :
  forall eps D rows ids B cs g crows cids CB cp radii max_neighbors n,
    usable eps D rows ids B cs g -> cloud GPU eps D crows cids CB cp ->
    ids <> [] -> cids <> [] -> Forall (fun b => b < B) cids -> Forall (fun b => b < CB) ids ->
    radii_match D radii cs ->
    (forall g2, mk_grid GPU eps cp (all_dims D radii) = Ok g2 -> usable eps D crows cids CB (all_dims D radii) g2) ->
    valid_sizes D radii ->
    snd (mk_nbh (find_neighbors_tf GPU) g radii (Some cp) max_neighbors) = Ok n ->
    exists t, transpose GPU eps (find_neighbors_tf GPU) n = Ok t /\
      NoDup (norig t) /\ (forall j i, In (i, j) (norig t) <-> In (j, i) (norig n)).
Proof.
  intros eps D rows ids B cs g crows cids CB cp radii mx n Hu Hc Hne Hcne HcB HB Hr Hu2 Hv E.
  destruct (mk_nbh_tf eps D rows ids B cs g eps crows cids CB cp radii mx (Some cp) Hu Hc Hcne HcB Hr (or_introl eq_refl))
    as (n' & E' & Eg & Es & Ee & Er & N1 & N2 & N3 & _ & _).
  rewrite E in E'. inversion E'; subst n'. clear E'.
  pose proof (grid_for_is _ _ _ _ _ _ _ _ (us_sizes _ _ _ _ _ _ _ Hu) (us_grid _ _ _ _ _ _ _ Hu)) as G.
  destruct (to_original_spec _ _ _ _ _ _ _ _ _ crows cids (nnbs n) G N1 N3) as [O1 O2]. rewrite <- N2 in O1, O2.
  unfold transpose. rewrite Ee, Es, Er.
  assert (Eb : all_dims D (bcast D radii) = bcast D radii) by apply bcast_bcast.
  assert (Hv' : valid_sizes D (bcast D radii)).
  { unfold valid_sizes in *. now rewrite Eb. }
  destruct (mk_grid_ok GPU eps D crows cids CB cp (bcast D radii) (cloud_is _ _ _ _ _ _ _ Hc) Hv') as (g2 & E2 & G2 & _).
  rewrite E2. cbn [bind]. specialize (Hu2 g2 E2).
  assert (Hgc : cloud GPU eps D rows ids B (gcloud (ngrid n))).
  { rewrite Eg. apply (grid_for_cloud _ _ _ _ _ _ cs). apply find_tf_grid_for. apply (us_grid _ _ _ _ _ _ _ Hu). }
  assert (Hr' : radii_match D (bcast D radii) (bcast D radii)).
  { unfold radii_match in *. rewrite Eb. destruct Hr as (_ & _ & Hr). repeat split; try reflexivity. exact Hr. }
  destruct (mk_nbh_tf eps D crows cids CB (bcast D radii) g2 eps rows ids B (gcloud (ngrid n)) (bcast D radii) 0
     (Some (gcloud (ngrid n))) Hu2 Hgc Hne HB Hr' (or_introl eq_refl)) as (t & Et & _ & _ & _ & _ & T1 & T2 & T3 & _ & _).
  exists t. split; [exact Et|].
  destruct (to_original_spec _ _ _ _ _ _ _ _ _ rows ids (nnbs t) G2 T1 T3) as [P1 P2]. rewrite <- T2 in P1, P2.
  split; [exact P1|]. intros j i. rewrite P2, O2. rewrite Eb. apply near_sym.
Qed.

Example C20_transpose_partial_ex_proof :
  exists g n t, grid_for GPU (1#1000) 2 exN_rows exN_ids 2 [1#1] g /\
    snd (mk_nbh (find_neighbors_tf GPU) g [1#1] (Some (seg 2 exN_centers exN_cids 2)) 0) = Ok n /\
    transpose GPU (1#1000) (find_neighbors_tf GPU) n = Ok t /\
    norig n = [(0,0);(1,1);(4,4)] /\ norig t = [(0,0);(1,1);(4,4)].
Proof.
  destruct (mk_grid GPU (1#1000) (seg 2 exN_rows exN_ids 2) [1#1]) as [g|] eqn:Eg; [|vm_compute in Eg; discriminate].
  exists g. eexists. eexists. split.
  { eapply grid_new; [|exact Eg]. apply seg_cloud; repeat constructor. }
  vm_compute in Eg. inversion Eg; subst g. clear Eg.
  split; [vm_compute; reflexivity|]. split; [vm_compute; reflexivity|]. split; reflexivity.
Qed.

(** C20. The neighborhood of a cloud with itself is its own transposed
    neighborhood, and the relation on the sorted points is symmetric. *)
Lemma C20_self_partial_proof :
  forall eps D rows ids B cs g radii max_neighbors n,
    usable eps D rows ids B cs g -> ids <> [] -> radii_match D radii cs ->
    snd (mk_nbh (find_neighbors_tf GPU) g radii None max_neighbors) = Ok n ->
    transpose GPU eps (find_neighbors_tf GPU) n = Ok n /\
    forall j i, In (i, j) (nnbs n) <-> In (j, i) (nnbs n).
Proof.
  intros eps D rows ids B cs g radii mx n Hu Hne Hr E.
  pose proof (grid_for_is _ _ _ _ _ _ _ _ (us_sizes _ _ _ _ _ _ _ Hu) (us_grid _ _ _ _ _ _ _ Hu)) as G.
  destruct (sorted_cloud_ok _ _ _ _ _ _ _ _ G) as (p & Ep & Ep' & Hp).
  specialize (Hp GPU eps).
  assert (Hne' : gsbids g <> []).
  { intros X. apply Hne. apply length_zero_iff_nil. rewrite <- (sbids_length _ _ _ _ _ _ _ _ G), X. reflexivity. }
  pose proof (cloud_is _ _ _ _ _ _ _ Hp) as Hpi.
  destruct (mk_nbh_tf eps D rows ids B cs g eps (gspts g) (gsbids g) B p radii mx None Hu Hp Hne' (ic_ids _ _ _ _ _ _ _ Hpi) Hr
     (or_intror (conj eq_refl Ep))) as (n' & E' & _ & _ & Ee & _ & _ & _ & N3 & _ & _).
  rewrite E in E'. inversion E'; subst n'. split.
  - unfold transpose. now rewrite Ee.
  - intros j i. rewrite !N3. apply near_sym.
Qed.

Example C20_self_partial_ex_proof :
  exists g n, grid_for GPU (1#1000) 2 exN_rows exN_ids 2 [1#1] g /\
    snd (mk_nbh (find_neighbors_tf GPU) g [1#1] None 0) = Ok n /\
    nnbs n = [(0,0);(1,0);(0,1);(1,1);(2,2);(3,3);(4,4);(5,4);(4,5);(5,5)].
Proof.
  destruct (mk_grid GPU (1#1000) (seg 2 exN_rows exN_ids 2) [1#1]) as [g|] eqn:Eg; [|vm_compute in Eg; discriminate].
  exists g. eexists. split.
  { eapply grid_new; [|exact Eg]. apply seg_cloud; repeat constructor. }
  vm_compute in Eg. inversion Eg; subst g. clear Eg.
  split; [vm_compute; reflexivity|]. reflexivity.
Qed.

(** Ranges from segment maxima are right when no block is empty. *)
Lemma segment_ends bl : (forall i, i < length bl -> nth i bl [] <> []) ->
  map (fun i => match nth i bl [] with [] => int32_min | _ => nth i (cum_ends 0 bl) 0%Z end) (seq 0 (length bl)) = cum_ends 0 bl.
Proof.
  intros H. symmetry. etransitivity; [apply (nth_map_seq' (cum_ends 0 bl) 0%Z)|]. rewrite cum_ends_length.
  apply map_ext_in. intros i Hi. apply in_seq in Hi. specialize (H i ltac:(lia)). destruct (nth i bl []); [congruence|reflexivity].
Qed.

Lemma tagged_concat {A} (f : A -> nat) (blk : nat -> list A) i n :
  concat (map (fun b => map (fun a => (f a, b)) (blk b)) (seq i n)) = tagged i (map (fun b => map f (blk b)) (seq i n)).
Proof. revert i; induction n as [|n IH]; intros i; cbn; [reflexivity|]. now rewrite IH, map_map. Qed.

Lemma concat_map_map {A B C} (f : B -> C) (h : A -> list B) l :
  map f (concat (map h l)) = concat (map (fun a => map f (h a)) l).
Proof. induction l; cbn; [reflexivity|]. now rewrite map_app, IHl. Qed.

(** C20, the class _NeighborhoodTransposed, for any neighborhood whatever its
    search: its pairs are the exchanged pairs, grouped by center, its first
    column refers to the sorted points of its grid, and its ranges are right
    if every point is a neighbor of some center. *)
Lemma C20_reversed_partial_proof :
  forall dev eps D crows cids CB n,
    nequal n = false -> cloud dev eps D crows cids CB (nsampled n) -> valid_sizes D (nradii n) ->
    (forall j i, In (j, i) (norig n) -> j < length (pts (gcloud (ngrid n))) /\ i < length cids) ->
    exists t, mk_transposed dev eps n = Ok (Some t) /\ nsampled t = gcloud (ngrid n) /\
      grid_for dev eps D crows cids CB (nradii n) (ngrid t) /\
      Permutation (norig t) (map (fun q => (snd q, fst q)) (norig n)) /\
      StronglySorted (fun a b => snd a <= snd b) (norig t) /\
      norig t = map (fun q => (nth (fst q) (gsidx (ngrid t)) 0, snd q)) (nnbs t) /\
      rshape (nranges t) = [length (pts (gcloud (ngrid n)))] /\
      ((forall j, j < length (pts (gcloud (ngrid n))) -> exists i, In (j, i) (norig n)) ->
       delimits (rdata (nranges t)) (nnbs t) (length (pts (gcloud (ngrid n))))).
Proof.
  intros dev eps D crows cids CB n Hq Hc Hv Hin. unfold mk_transposed. rewrite Hq.
  destruct (mk_grid_ok dev eps D crows cids CB (nsampled n) (nradii n) (cloud_is _ _ _ _ _ _ _ Hc) Hv) as (g & Eg & G & _).
  rewrite Eg. cbn [bind].
  set (N := length (pts (gcloud (ngrid n)))) in *.
  set (rv := map swap_pair (norig n)).
  assert (Lrv : length rv = length (norig n)) by apply map_length.
  rewrite (gather_map _ _ (0,0)).
  2:{ apply Forall_forall. intros i Hi. pose proof (argsort_lt Nat.leb (map snd rv)) as HF.
      rewrite Forall_forall in HF. specialize (HF i Hi). now rewrite map_length in HF. }
  cbn [bind].
  set (ord := argsort Nat.leb (map snd rv)).
  set (orig := map (fun i => nth i rv (0,0)) ord).
  assert (Pord : Permutation ord (seq 0 (length rv))).
  { unfold ord. rewrite <- (map_length snd rv). apply argsort_perm. }
  assert (Porig : Permutation orig rv).
  { unfold orig. rewrite Pord. now rewrite map_nth_seq. }
  assert (Hrv : forall q, In q rv -> fst q < length cids /\ snd q < N).
  { intros q Hq'. apply in_map_iff in Hq' as ([j i] & <- & Hji). cbn. specialize (Hin j i Hji). tauto. }
  assert (Ho : forall q, In q orig -> fst q < length cids /\ snd q < N).
  { intros q Hq'. apply Hrv. now apply (Permutation_in _ Porig). }
  pose proof (sidx_perm _ _ _ _ _ _ _ _ G) as Ps. pose proof (sidx_length _ _ _ _ _ _ _ _ G) as Ls.
  rewrite <- Ls in Ps.
  rewrite (gather_map _ _ 0).
  2:{ rewrite invert_permutation_length, Ls. apply Forall_forall. intros i Hi.
      apply in_map_iff in Hi as (q & <- & Hq'). now apply Ho. }
  cbn [bind].
  set (nbs := combine _ _).
  assert (En : nbs = map (fun q => (nth (fst q) (invert_permutation (gsidx g)) 0, snd q)) orig).
  { unfold nbs. rewrite map_map. clear. induction orig as [|q l IH]; [reflexivity|]. cbn. now rewrite IH. }
  set (blk := fun b => map (fun k => nth k rv (0,0)) (positions b (map snd rv))).
  assert (Eord : ord = concat (map (fun b => positions b (map snd rv)) (seq 0 N))).
  { apply argsort_ids_eq. apply Forall_forall. intros b Hb. apply in_map_iff in Hb as (q & <- & Hq'). now apply Hrv. }
  assert (Hblk : forall b q, In q (blk b) <-> In q rv /\ snd q = b).
  { intros b q. unfold blk, positions. rewrite in_map_iff. split.
    - intros (k & E & Hk). apply filter_In in Hk as [Hk Hb]. apply in_seq in Hk. apply Nat.eqb_eq in Hb.
      rewrite map_length in Hk. change 0 with (snd (0,0)) in Hb at 1. rewrite map_nth, E in Hb.
      split; [rewrite <- E; apply nth_In; lia|exact Hb].
    - intros [Hq' Hb]. apply (In_nth _ _ (0,0)) in Hq' as (k & Hk & E). exists k. split; [exact E|].
      apply filter_In. split; [apply in_seq; rewrite map_length; lia|]. apply Nat.eqb_eq.
      change 0 with (snd (0,0)) at 1. rewrite map_nth, E. exact Hb. }
  set (f := fun q : nat * nat => nth (fst q) (invert_permutation (gsidx g)) 0).
  assert (Et : nbs = tagged 0 (map (fun b => map f (blk b)) (seq 0 N))).
  { rewrite En. unfold orig. rewrite Eord, <- tagged_concat, !concat_map_map. f_equal.
    apply map_ext. intros b. fold (blk b). apply map_ext_in. intros q Hq'. apply Hblk in Hq' as [_ Hb]. unfold f. now rewrite Hb. }
  set (bl := map (fun b => map f (blk b)) (seq 0 N)) in *.
  assert (Lbl : length bl = N) by (unfold bl; now rewrite map_length, seq_length).
  assert (Ln : length nbs = length (norig n)).
  { rewrite En, map_length. rewrite (Permutation_length Porig). exact Lrv. }
  replace (map Z.of_nat (seq 1 (length (norig n)))) with (map Z.of_nat (seq 1 (length (tagged 0 bl)))) by (now rewrite <- Et, Ln).
  rewrite Et. replace (Z.of_nat N) with (Z.of_nat (length bl)) by (now rewrite Lbl). rewrite brute_ranges. cbn [bind].
  eexists. split; [reflexivity|]. cbn [nsampled ngrid norig nnbs nranges rshape rdata].
  split; [reflexivity|]. split; [eapply grid_new; eauto|]. split; [exact Porig|]. split; [|split; [|split]].
  - unfold orig. rewrite Eord, concat_map_map. fold blk.
    assert (HS : forall i k, StronglySorted (fun a b : nat * nat => snd a <= snd b) (concat (map blk (seq i k)))).
    { intros i k; revert i; induction k as [|k IH]; intros i; cbn; [constructor|].
      assert (Happ : forall (l1 l2 : list (nat * nat)),
        (forall q, In q l1 -> snd q = i) -> (forall q, In q l2 -> i <= snd q) ->
        StronglySorted (fun a b => snd a <= snd b) l2 -> StronglySorted (fun a b => snd a <= snd b) (l1 ++ l2)).
      { induction l1 as [|a l1 IHl]; intros l2 H1 H2 H3; cbn; [exact H3|]. constructor.
        - apply IHl; auto. intros; apply H1; cbn; auto.
        - apply Forall_forall. intros q Hq'. rewrite (H1 a) by (cbn; auto).
          apply in_app_iff in Hq' as [H|H]; [rewrite (H1 q) by (cbn; auto); lia|auto]. }
      apply Happ; [intros q Hq'; now apply Hblk in Hq'| |apply IH].
      intros q Hq'. apply in_concat in Hq' as (x & Hx & Hq'). apply in_map_iff in Hx as (b & <- & Hb).
      apply in_seq in Hb. apply Hblk in Hq'. lia. }
    apply HS.
  - rewrite <- Et, En, map_map. cbn [fst snd]. rewrite <- (map_id orig) at 1. apply map_ext_in. intros q Hq'.
    destruct (Ho q Hq') as [Hf _].
    rewrite invert_permutation_nth by (rewrite Ls; exact Hf).
    assert (Hi : In (fst q) (gsidx g)) by (apply (Permutation_in _ (Permutation_sym Ps)), in_seq; lia).
    destruct (find_index_spec _ _ Hi) as [_ ->]. now destruct q.
  - reflexivity.
  - intros Hall. rewrite segment_ends.
    + rewrite <- Lbl. apply delimits_tagged.
    + rewrite Lbl. intros j Hj. unfold bl. rewrite nth_map_seq by exact Hj.
      destruct (Hall j Hj) as [i Hi]. intros E. apply map_eq_nil in E.
      assert (X : In (i, j) (blk j)).
      { apply Hblk. split; [|reflexivity]. apply in_map_iff. exists (j, i). now split. }
      rewrite E in X. exact X.
Qed.

Example C20_reversed_partial_ex_proof :
  exists g n t, grid_for GPU (1#1000) 2 exN_rows exN_ids 2 [1#1] g /\
    snd (mk_nbh (find_neighbors_tf GPU) g [1#1] (Some (seg 2 exN_centers exN_cids 2)) 0) = Ok n /\
    mk_transposed GPU (1#1000) n = Ok (Some t) /\
    norig n = [(0,0);(1,1);(4,4)] /\ norig t = [(0,0);(1,1);(4,4)] /\
    rdata (nranges t) = [1; 2; int32_min; int32_min; 3; int32_min]%Z.
Proof.
  destruct (mk_grid GPU (1#1000) (seg 2 exN_rows exN_ids 2) [1#1]) as [g|] eqn:Eg; [|vm_compute in Eg; discriminate].
  exists g. eexists. eexists. split.
  { eapply grid_new; [|exact Eg]. apply seg_cloud; repeat constructor. }
  vm_compute in Eg. inversion Eg; subst g. clear Eg.
  split; [vm_compute; reflexivity|]. split; [vm_compute; reflexivity|]. repeat split; reflexivity.
Qed.

(** C20. For the neighborhood of a cloud with itself _NeighborhoodTransposed
    gives an object without attributes. *)
Lemma C20_reversed_refuted_proof :
  forall dev eps g radii max_neighbors n,
    snd (mk_nbh (find_neighbors_tf dev) g radii None max_neighbors) = Ok n ->
    mk_transposed dev eps n = Ok None.
Proof.
  intros dev eps g radii mx n. unfold mk_nbh. destruct (sorted_cloud g); [|discriminate].
  destruct (find_neighbors_tf _ _ _ _ _) as [g' [out|]]; [|discriminate]. cbn [snd bind].
  destruct (original_ids _ _); [|discriminate]. cbn [bind]. intros E. inversion E. reflexivity.
Qed.
