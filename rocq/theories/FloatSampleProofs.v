(** Proofs about Poisson disk sampling with the fallback in float32 (C75). The
    statements are copied into PropertiesFloatSampling.v. *)
From Coq Require Import String List Arith ZArith QArith Qround Qabs Lia Lqa Bool Permutation.
From Verif Require Import Tensor TensorFacts Spec PointCloud SpecCloud History PointCloudFacts QFacts CloudProofs
  Grid SpecGrid GridFacts Neighbors SpecNeighbors NeighborFacts NeighborProofs Neighborhood NeighborhoodFacts
  Sampling SpecSampling SamplingFacts SamplingProofs
  Float FloatFacts FloatGrid SpecFloat KeyGridFacts FloatGridFacts FloatProofs FloatSampling SpecFloatSampling.
Import ListNotations.
Local Open Scope nat_scope.

(** * The grid of the neighborhood *)
Lemma get_DS_keeps dev g : let g' := fst (get_DS dev g) in
  gcloud g' = gcloud g /\ gspts g' = gspts g /\ gsbids g' = gsbids g /\ gsidx g' = gsidx g.
Proof. unfold get_DS. destruct (gds g); cbn; [auto|]. destruct (build_grid_ds _ _ _ _); cbn; auto. Qed.
Lemma find32_grid test g c radii : let g' := fst (find_neighbors32 GPU test g c radii) in
  gcloud g' = gcloud g /\ gspts g' = gspts g /\ gsbids g' = gsbids g /\ gsidx g' = gsidx g.
Proof.
  unfold find_neighbors32. destruct (bcast _ _) as [|r0 [|r1 l]]; cbn [fst]; auto. destruct (_ || _ || _)%bool; cbn [fst]; auto.
  destruct (gather _ _); cbn [fst]; auto. pose proof (get_DS_keeps GPU g) as H. destruct (get_DS GPU g) as [g' ds]. exact H.
Qed.
Lemma find32_shape test g c radii rg nbs : snd (find_neighbors32 GPU test g c radii) = Ok (rg, nbs) -> 2 <= length (rdata rg) -> rshape rg = [length (rdata rg)].
Proof.
  unfold find_neighbors32. destruct (bcast _ _) as [|r0 [|r1 l]]; cbn [snd]; try discriminate. destruct (_ || _ || _)%bool; cbn [snd]; try discriminate.
  destruct (gather _ _); cbn [snd]; try discriminate. destruct (get_DS GPU g) as [g' ds]. cbn [snd]. destruct ds as [ds|]; cbn [bind]; [|discriminate].
  destruct (nb_loop32 _ _ _ _ _ _ _ _ _) as [[l1 l2]|]; cbn [bind fst snd]; [|discriminate]. destruct l1 as [|x [|y l1]]; [discriminate|..]; intros E H; inversion E; subst; cbn in H |- *; [lia|reflexivity].
Qed.
Lemma bcast_rounded D l : 2 <= D -> bcast D (map f32 (bcast D l)) = bcast D (map f32 l).
Proof.
  intros H. unfold bcast at 2 3. destruct l as [|x [|y l]]; auto. cbn [map].
  assert (E : forall n, map f32 (repeat x n) = repeat (f32 x) n) by (induction n; cbn; congruence).
  rewrite E. destruct D as [|[|D]]; [lia..|]. reflexivity.
Qed.

Lemma coord_le_dist D (p c : point) d (s : Q) : d < D -> (0 < s)%Q -> (dist2 D p c < s * s)%Q -> (Qabs (nth d p 0 - nth d c 0) <= s)%Q.
Proof.
  intros Hd Hs H. assert (Hsq : ((nth d p 0 - nth d c 0) * (nth d p 0 - nth d c 0) <= dist2 D p c)%Q).
  { unfold dist2. assert (Hin : In d (seq 0 D)) by (apply in_seq; lia). revert Hin. generalize (seq 0 D). induction l as [|e l IH]; [intros []|].
    cbn [map fold_right]. set (rest := fold_right Qplus 0%Q _) in *.
    assert (0 <= rest)%Q. { unfold rest. clear. induction l as [|e l IH]; cbn [map fold_right]; [lra|]. set (x := (nth e p 0 - nth e c 0)%Q). nra. }
    intros [->|Hin]; [lra|]. specialize (IH Hin). set (x := (nth e p 0 - nth e c 0)%Q). nra. }
  apply Qabs_Qle_condition. set (x := (nth d p 0 - nth d c 0)%Q) in *. split; nra.
Qed.

(** * The loop *)
Section Rows.
  Context (D : nat) (rows : list point) (ids : list nat) (n : nbh) (small large : Q).
  Let N := length ids.
  Let g := ngrid n.
  Hypothesis Hdim : dim (gcloud g) = D.
  Hypothesis Pm : Permutation (gsidx g) (seq 0 N).
  Hypothesis Ep : gspts g = map (fun i => nth i rows []) (gsidx g).
  Hypothesis Eb : gsbids g = map (fun i => nth i ids 0) (gsidx g).
  Hypothesis Hdel : delimits (rdata (nranges n)) (nnbs n) N.
  Hypothesis Hsh : rshape (nranges n) = [N].
  Hypothesis Hs : (0 < small)%Q.
  Hypothesis Hn1 : forall j i, In (j, i) (nnbs n) -> j < N /\ i < N /\ nth j (gsbids g) 0 = nth i (gsbids g) 0 /\
    (dist2 D (nth j (gspts g) []) (nth i (gspts g) []) < large * large)%Q.
  Hypothesis Hn2 : forall j i, j < N -> i < N -> nth j (gsbids g) 0 = nth i (gsbids g) 0 ->
    (dist2 D (nth j (gspts g) []) (nth i (gspts g) []) < small * small)%Q -> In (j, i) (nnbs n).

  Lemma rows_sample dev fuel draws mode : N <= fuel -> means mode poisson_names ->
    exists sel, sample dev fuel draws n mode =
        Some (Ok (seg D (map (fun i => nth i rows []) sel) (map (fun i => nth i ids 0) sel) (bsize (nsampled n)), Some sel)) /\
      poisson_between D small large rows ids sel.
  Proof.
    intros HF Hm.
    assert (Li : length (gsidx g) = N) by (rewrite (Permutation_length Pm), seq_length; reflexivity).
    assert (Lp : length (gspts g) = N) by (rewrite Ep, map_length; exact Li).
    assert (Lb : length (gsbids g) = N) by (rewrite Eb, map_length; exact Li).
    assert (Lt : forall j, j < N -> nth j (gsidx g) 0 < N).
    { intros j Hj. assert (I : In (nth j (gsidx g) 0) (gsidx g)) by (apply nth_In; lia). apply (Permutation_in _ Pm), in_seq in I. lia. }
    assert (ND : NoDup (gsidx g)) by (eapply Permutation_NoDup; [symmetry; exact Pm|apply seq_NoDup]).
    assert (Np : forall j, j < N -> nth j (gspts g) [] = nth (nth j (gsidx g) 0) rows []).
    { intros j Hj. rewrite Ep. rewrite (nth_indep _ [] (nth 0 rows [])) by (rewrite map_length; lia). now rewrite (map_nth (fun i => nth i rows [])). }
    assert (Nb : forall j, j < N -> nth j (gsbids g) 0 = nth (nth j (gsidx g) 0) ids 0).
    { intros j Hj. rewrite Eb. rewrite (nth_indep (map _ _) 0 (nth 0 ids 0)) by (rewrite map_length; lia). now rewrite (map_nth (fun i => nth i ids 0)). }
    set (nb c := map fst (filter (fun q => Nat.eqb (snd q) c) (nnbs n))).
    assert (Hnb : forall j c, In j (nb c) <-> In (j, c) (nnbs n)).
    { intros j c. unfold nb. rewrite in_map_iff. split.
      - intros ([a b] & <- & H). apply filter_In in H as [H E]. cbn in E. apply Nat.eqb_eq in E. now subst.
      - intros H. exists (j, c). split; [reflexivity|]. apply filter_In. split; [exact H|apply Nat.eqb_refl]. }
    pose proof Hdel as (D1 & D2 & D3).
    destruct (loop_start dev N draws (0%Z :: rdata (nranges n)) (nnbs n) nb
        (fun j i => j < N /\ i < N /\ nth j (gsbids g) 0 = nth i (gsbids g) 0 /\ (dist2 D (nth j (gspts g) []) (nth i (gspts g) []) < small * small)%Q)) with (fuel := fuel)
      as (sel & E & S1 & S2 & S3 & S4).
    - intros c Hc. specialize (D3 c Hc). cbv zeta in D3. destruct D3 as (A1 & A2 & A3).
      exists (match c with 0 => 0%Z | S k => nth k (rdata (nranges n)) 0%Z end), (nth c (rdata (nranges n)) 0%Z).
      split; [|split].
      + destruct c as [|k]; [reflexivity|]. cbn [nth_error]. apply nth_error_nth'. lia.
      + rewrite Nat.add_1_r. cbn [nth_error]. apply nth_error_nth'. lia.
      + unfold nb. now rewrite py_slice_slice, A3.
    - intros c Hc. apply Hnb, Hn2; auto. rewrite dist2_self. nra.
    - intros i c (H1 & H2 & H3 & H4). apply Hnb, Hn2; auto.
    - intros i c (H1 & H2 & H3 & H4). rewrite dist2_comm. auto.
    - intros i c _ H. apply Hnb, Hn1 in H. tauto.
    - exact HF.
    - exists (map (fun j => nth j (gsidx g) 0) sel). assert (Hlt : forall j, In j sel -> j < N) by (now apply Forall_forall). split.
      + unfold sample. rewrite (sample_mode_poisson _ Hm). unfold sampling_tf, sampling_poisson. fold g. rewrite Hsh, Lp, E. cbn [bind].
        rewrite (gather_map (gspts g) sel []) by (rewrite Lp; exact S2). cbn [bind].
        rewrite (gather_map (gsbids g) sel 0) by (rewrite Lb; exact S2). cbn [bind omap Nat.eqb]. fold g.
        rewrite (gather_map (gsidx g) sel 0) by (rewrite Li; exact S2). cbn [bind].
        rewrite (sampled_cloud_ok n D) by (try exact Hdim; now rewrite !map_length). cbn [bind]. rewrite !map_map.
        rewrite (map_ext_in (fun i => nth i (gspts g) []) (fun j => nth (nth j (gsidx g) 0) rows [])) by auto.
        rewrite (map_ext_in (fun i => nth i (gsbids g) 0) (fun j => nth (nth j (gsidx g) 0) ids 0)) by auto. reflexivity.
      + split; [|split; [|split]].
        * apply NoDup_map_inj_in; [|exact S1]. intros a b Ha Hb. apply (proj1 (NoDup_nth (gsidx g) 0) ND); rewrite Li; auto.
        * apply Forall_map. eapply Forall_impl; [|exact S2]. exact Lt.
        * intros i j Hi Hj Hij Hid. apply in_map_iff in Hi as (a & <- & Ha). apply in_map_iff in Hj as (b & <- & Hb).
          assert (Hab : a <> b) by congruence. specialize (S3 a b Ha Hb Hab).
          apply Qnot_lt_le. intros H. apply S3. rewrite !Nb, !Np by auto. auto.
        * intros j Hj. fold N in Hj.
          assert (Hjs : In j (gsidx g)) by (apply (Permutation_in _ (Permutation_sym Pm)), in_seq; lia).
          apply (In_nth _ _ 0) in Hjs as (a & Ha & <-). rewrite Li in Ha.
          destruct (S4 a Ha) as (b & Hb & Hab). apply Hnb, Hn1 in Hab as (_ & _ & H1 & H2).
          exists (nth b (gsidx g) 0). split; [now apply (in_map (fun j => nth j (gsidx g) 0))|].
          rewrite !Nb in H1 by auto. rewrite !Np in H2 by auto. auto.
  Qed.
End Rows.

(** C75, partial. Poisson disk sampling with the fallback, whose grid and search
    are computed in float32: [test] stands for the comparison of the computed
    distance of two points with the radius, which holds below [small] and does
    not hold from [large] on. With cells as large as the radius in the first two
    dimensions, no point in the cell beyond the last one, and [small] at most
    the radius reduced by a fraction of (number of cells + 2) / 2^22: for every
    random choice the sampling stops after at most as many draws as there are
    points, the points selected of one element are at least [small] apart, and
    every point is closer than [large] to a selected one of its element.
    Partial: two or more points, and the conditions of C54. *)
Lemma C75_sample_partial_proof :
  forall test small large eps D rows ids B p cs g radii mode dev fuel draws,
    cloud GPU eps D rows ids B p -> float32_batch D rows ids -> mk_grid32 GPU p cs = Ok g -> 2 <= D ->
    (Z.of_nat (length ids) < 2 ^ 31 - 1)%Z -> (Z.of_nat B * product (gnc g) <= 2 ^ 31)%Z ->
    (forall lo i d, i < length ids -> d < D -> lower_corner32 D rows ids (nth i ids 0) lo ->
       Qfloor (position32 (nth d lo 0%Q) (nth d (gcells g) 0%Q) (xc rows i d)) <> nth d (gnc g) 0%Z) ->
    (forall d, (d < 2)%nat -> nth d (all_dims D (map f32 radii)) 0 == nth d (gcells g) 0)%Q ->
    (forall d, (d < 2)%nat -> pow2 (-100) <= nth d (gcells g) 0)%Q ->
    (0 < small)%Q -> (forall d, (d < 2)%nat -> small <= safe_radius (nth d (gnc g) 0%Z) (nth d (gcells g) 0))%Q ->
    decides D test small large rows ->
    2 <= length ids -> length ids <= fuel -> means mode poisson_names ->
    exists n q sel, snd (mk_nbh (search32 test) g radii None 0) = Ok n /\
      sample dev fuel draws n mode = Some (Ok (q, Some sel)) /\
      poisson_between D small large rows ids sel /\
      cloud GPU eps D (map (fun i => nth i rows []) sel) (map (fun i => nth i ids 0) sel) B q.
Proof.
  intros test small large eps D rows ids B p cs g radii mode dev fuel draws Hc Hf E HD HN Ho Hfit Hrad Hlow Hs Hsafe Hdec Hlen HF Hm.
  pose proof Hc as Hc'. apply cloud_is in Hc'. pose proof (mk_grid32_is GPU eps D rows ids B p cs g Hc' E) as G. set (cells := bcast D (map f32 cs)) in *.
  assert (Hne : ids <> []) by (intros ->; cbn in Hlen; lia).
  assert (Lk : length (gkeys g) = length ids) by (rewrite (h_keys _ _ _ _ _ _ G), map_length, seq_length; reflexivity).
  assert (Pm : Permutation (gsidx g) (seq 0 (length ids))) by (rewrite (h_sidx _ _ _ _ _ _ G), <- Lk; apply argsort_perm).
  assert (Li : length (gsidx g) = length ids) by (rewrite (Permutation_length Pm), seq_length; reflexivity).
  assert (Lt : forall j, In j (gsidx g) -> j < length ids) by (intros j Hj; apply (Permutation_in _ Pm), in_seq in Hj; lia).
  pose proof (ic_ids _ _ _ _ _ _ _ Hc') as Fi. pose proof (ic_rows _ _ _ _ _ _ _ Hc') as Fr. rewrite Forall_forall in Fi, Fr.
  assert (Fb : Forall (fun b => b < B) (gsbids g)).
  { rewrite (h_sbids _ _ _ _ _ _ G). apply Forall_map, Forall_forall. intros i Hi. apply Fi, nth_In, Lt, Hi. }
  assert (Fp : forall r, In r (gspts g) -> In r rows).
  { intros r Hr. rewrite (h_spts _ _ _ _ _ _ G) in Hr. apply in_map_iff in Hr as (i & <- & Hi). apply nth_In. rewrite (h_len _ _ _ _ _ _ G). auto. }
  set (c := seg D (gspts g) (gsbids g) B).
  assert (Lp : length (gspts g) = length ids) by (rewrite (h_spts _ _ _ _ _ _ G), map_length; exact Li).
  assert (Lb : length (gsbids g) = length ids) by (rewrite (h_sbids _ _ _ _ _ _ G), map_length; exact Li).
  assert (Es : sorted_cloud g = Ok c).
  { unfold sorted_cloud, init. rewrite (h_dim _ _ _ _ _ _ G), (h_bsize _ _ _ _ _ _ G). cbn. rewrite Lb, Lp, Nat.eqb_refl. reflexivity. }
  assert (Cc : cloud GPU 0 D (gspts g) (gsbids g) B c).
  { apply seg_cloud; [congruence|exact Fb|]. apply Forall_forall. auto. }
  destruct (C54_search_partial_proof test eps D rows ids B p cs g 0 (gspts g) (gsbids g) B c (bcast D radii)) as (rg & nbs & Ef & Dl & _ & N1 & N2); auto.
  { intros H. rewrite H in Lb. cbn in Lb. lia. }
  { intros d Hd. change (all_dims D (map f32 (bcast D radii))) with (bcast D (map f32 (bcast D radii))). rewrite bcast_rounded by exact HD. now apply Hrad. }
  rewrite Lb in *.
  destruct (find32_grid test g c (bcast D radii)) as (K1 & K2 & K3 & K4). cbv zeta in *.
  unfold mk_nbh. rewrite (h_dim _ _ _ _ _ _ G), Es. unfold search32. destruct (find_neighbors32 GPU test g c (bcast D radii)) as [g' rs] eqn:Ex. cbn [fst snd] in *. subst rs. cbn [bind fst snd].
  assert (Ll : Forall (fun i => i < length (gsidx g')) (map fst nbs)).
  { apply Forall_map, Forall_forall. intros [j i] Hi. rewrite K4, Li. now apply (N1 j i). }
  unfold original_ids. rewrite (gather_map _ _ 0 Ll). cbn [bind].
  assert (Hsh : rshape rg = [length ids]).
  { assert (L : length (rdata rg) = length ids) by apply Dl. rewrite <- L. apply (find32_shape test g c (bcast D radii) rg nbs); [now rewrite Ex|lia]. }
  set (n := Nbh g' true c (bcast D radii) 0 rg nbs _).
  destruct (rows_sample D rows ids n small large) with (dev := dev) (fuel := fuel) (draws := draws) (mode := mode) as (sel & H1 & H2); auto; unfold n; cbn [ngrid nranges nnbs]; rewrite ?K1, ?K2, ?K3, ?K4.
  - apply (h_dim _ _ _ _ _ _ G).
  - exact Pm.
  - apply (h_spts _ _ _ _ _ _ G).
  - apply (h_sbids _ _ _ _ _ _ G).
  - intros j i Hji. destruct (N1 j i Hji) as (Hj & Hi & Hb & Ht). split; [exact Hj|]. split; [exact Hi|]. split; [exact Hb|].
    apply Hdec; [apply Fp, nth_In; lia|apply Fp, nth_In; lia|exact Ht].
  - intros j i Hj Hi Hb Hd. apply N2; auto.
    + apply Hdec; [apply Fp, nth_In; lia|apply Fp, nth_In; lia|exact Hd].
    + intros d Hd2. eapply Qle_trans; [|apply (Hsafe d Hd2)]. apply (coord_le_dist D); [lia|exact Hs|exact Hd].
  - exists n. do 2 eexists. split; [rewrite <- ?K4; reflexivity|]. split; [exact H1|]. split; [exact H2|].
    destruct H2 as (_ & Hl & _). rewrite Forall_forall in Hl. cbn [n nsampled c seg bsize]. apply seg_cloud.
    + now rewrite !map_length.
    + apply Forall_map, Forall_forall. intros i Hi. apply Fi, nth_In. auto.
    + apply Forall_map, Forall_forall. intros i Hi. apply Fr, nth_In. rewrite (h_len _ _ _ _ _ _ G). auto.
Qed.

(** Eight points with coordinates that are rounded, radius 0.7 rounded: the exact
    comparison decides. *)
Lemma exact_decides D r small rows : Forall (fun r => length r = D) rows -> (0 < small)%Q -> (small <= r)%Q -> decides D (fun a b => norm_lt a b r) small r rows.
Proof.
  intros Hl Hs Hr p c Hp Hc. rewrite Forall_forall in Hl. assert (0 < r)%Q by lra. split; intros H'.
  - apply (norm_lt_iff D); auto. nra.
  - apply (norm_lt_iff D) in H'; auto.
Qed.
Example C75_sample_partial_ex_proof :
  exists g, cloud GPU 0 2 ex54_rows ex54_ids 1 ex54_cloud /\ float32_batch 2 ex54_rows ex54_ids /\ mk_grid32 GPU ex54_cloud [7 # 10] = Ok g /\
    (forall lo i d, i < length ex54_ids -> d < 2 -> lower_corner32 2 ex54_rows ex54_ids (nth i ex54_ids 0) lo ->
       Qfloor (position32 (nth d lo 0%Q) (nth d (gcells g) 0%Q) (xc ex54_rows i d)) <> nth d (gnc g) 0%Z) /\
    (forall d, (d < 2)%nat -> nth d (all_dims 2 (map f32 [7 # 10])) 0 == nth d (gcells g) 0)%Q /\
    (forall d, (d < 2)%nat -> pow2 (-100) <= nth d (gcells g) 0)%Q /\
    (forall d, (d < 2)%nat -> (69 # 100) <= safe_radius (nth d (gnc g) 0%Z) (nth d (gcells g) 0))%Q /\
    decides 2 ex54_test (69 # 100) (f32 (7 # 10)) ex54_rows /\
    exists n q, snd (mk_nbh (search32 ex54_test) g [7 # 10] None 0) = Ok n /\
      sample GPU 8 (fun k => k) n "poisson" = Some (Ok (q, Some [7; 5; 2; 6; 1; 0])).
Proof.
  destruct (mk_grid32 GPU ex54_cloud [7 # 10]) as [g|] eqn:Eg; [|vm_compute in Eg; discriminate].
  exists g. split; [apply seg_cloud; [reflexivity|repeat constructor|repeat constructor]|]. split; [exact ex54_batch|]. split; [reflexivity|].
  split; [exact (ex54_fits g Eg)|]. vm_compute in Eg. inversion Eg; subst g; clear Eg.
  split; [intros d Hd; destruct d as [|[|d]]; [vm_compute; reflexivity..|lia]|].
  split; [intros d Hd; destruct d as [|[|d]]; [vm_compute; discriminate..|lia]|].
  split; [intros d Hd; destruct d as [|[|d]]; [vm_compute; discriminate..|lia]|].
  split.
  - apply exact_decides; [repeat constructor|reflexivity|vm_compute; discriminate].
  - do 2 eexists. split; vm_compute; reflexivity.
Qed.

(** C75, refuted without the condition on the cells. Two points of float32
    coordinates for which the sampling never stops, whatever is drawn: the
    margin of the box has no effect, and the point on the far side is not found
    in its own neighborhood, although distances are compared exactly. *)
Lemma C75_never_ends_refuted_proof :
  exists rows ids p r g n,
    cloud GPU 0 2 rows ids 1 p /\ float32_batch 2 rows ids /\ is_float32 r /\ (0 < r)%Q /\ mk_grid32 GPU p [r] = Ok g /\
    snd (mk_nbh (search32 (fun a b => norm_lt a b r)) g [r] None 0) = Ok n /\
    forall dev fuel draws mode, means mode poisson_names -> sample dev fuel draws n mode = None.
Proof.
  exists [[1#1;4#1];[5#2;1#1]], [0;0], (seg 2 [[1#1;4#1];[5#2;1#1]] [0;0] 1), (1#1). do 2 eexists.
  split; [apply seg_cloud; repeat constructor|]. split; [intros i d Hi Hd; cbn in Hi; destruct i as [|[|i]], d as [|[|d]]; try lia; reflexivity|].
  split; [reflexivity|]. split; [reflexivity|]. split; [vm_compute; reflexivity|]. split; [vm_compute; reflexivity|].
  intros dev fuel draws mode Hm. unfold sample. rewrite (sample_mode_poisson _ Hm). cbn [sampling_tf]. unfold sampling_poisson.
  cbn [ngrid nranges nnbs rshape rdata gspts length repeat].
  assert (H : forall fuel k b acc,
    poisson_loop dev fuel draws k [0;0;1]%Z [(1, 1)] [true; b] acc = None).
  { clear. induction fuel as [|fuel IH]; intros k b acc; [destruct b; reflexivity|].
    destruct b.
    - cbn [poisson_loop candidates length seq filter nth].
      assert (Hk : draws k mod 2 = 0 \/ draws k mod 2 = 1) by (pose proof (Nat.mod_upper_bound (draws k) 2); lia).
      destruct Hk as [-> | ->]; cbn [nth nth_error plus].
      + destruct dev; exact (IH (S k) true (acc ++ [0])).
      + destruct dev; exact (IH (S k) false (acc ++ [1])).
    - cbn [poisson_loop candidates length seq filter nth]. rewrite Nat.mod_1_r. cbn [nth nth_error plus].
      destruct dev; exact (IH (S k) false (acc ++ [0])). }
  rewrite H. reflexivity.
Qed.
