(** Proofs of the float32 property C54. *)
From Coq Require Import List Arith ZArith QArith Qround Qabs Qminmax Rdefinitions Qreals Lia Lqa Bool.
From Flocq Require Import Core.
From Verif Require Import Tensor TensorFacts Spec PointCloud SpecCloud History PointCloudFacts QFacts CloudProofs
  Grid SpecGrid GridFacts Neighbors SpecNeighbors NeighborFacts NeighborProofs Float FloatFacts FloatGrid SpecFloat
  KeyGridFacts FloatGridFacts.
Import ListNotations.
Local Open Scope Z_scope.

(** C54, the rounding. The rounding used in the model is rounding to nearest,
    ties to even, in the binary32 format (24 bit precision, smallest exponent
    -149) as the Flocq library defines it. *)
Lemma C54_binary32_proof : forall x : Q,
  Q2R (f32 x) = round radix2 (FLT_exp (-149) 24) ZnearestE (Q2R x).
Proof. exact f32_ok. Qed.

Example C54_binary32_ex_proof :
  f32 (1 # 10) = 13421773 # 134217728 /\ f32 (16777217 # 1) = 16777216 # 1 /\ f32 (16777219 # 1) = 16777220 # 1.
Proof. vm_compute. auto. Qed.

(** C54, the margin. Subtracting and adding the margin 1e-9 has an effect on
    every coordinate of magnitude below 1/32, and none on any coordinate of
    larger magnitude. *)
Lemma C54_margin_proof : forall x : Q, is_float32 x ->
  ((Qabs x < 1 # 32)%Q -> (f32 (x - f32 (1 # 1000000000)) < x /\ x < f32 (x + f32 (1 # 1000000000)))%Q) /\
  ((1 # 32 < Qabs x)%Q -> (f32 (x - f32 (1 # 1000000000)) == x /\ f32 (x + f32 (1 # 1000000000)) == x)%Q).
Proof.
  intros x Hx. split; intros H.
  - split; [apply margin_below; assumption|apply margin_above; assumption].
  - split; apply margin_lost; auto; vm_compute; discriminate.
Qed.

Example C54_margin_ex_proof :
  is_float32 (f32 (1 # 100)) /\ (Qabs (f32 (1 # 100)) < 1 # 32)%Q /\
  is_float32 (f32 (1 # 10)) /\ (1 # 32 < Qabs (f32 (1 # 10)))%Q.
Proof. repeat split; vm_compute; reflexivity. Qed.

Lemma lo32_corner D rows ids b : length rows = length ids -> In b ids ->
  lower_corner32 D rows ids b (lo32 D rows ids b).
Proof.
  intros Hl Hb d Hd. destruct (lo_corner 0 D rows ids Hl b Hb d Hd) as [H1 (i & Hi & Hbi & E)].
  exists i. split; [exact Hi|]. split; [exact Hbi|]. split.
  - intros j Hj Hbj. specialize (H1 j Hj Hbj). lra.
  - change (nth d (lo32 D rows ids b) 0%Q) with (coord (lo32 D rows ids b) d).
    change (nth d (lo_of 0 D rows ids b) 0%Q) with (coord (lo_of 0 D rows ids b) d) in E. unfold lo32, lo_of in *.
    rewrite coord_map in * by now rewrite red_min_length. apply f32_comp. change (f32 (1 # 1000000000)) with margin32. lra.
Qed.
Lemma hi32_corner D rows ids b : length rows = length ids -> In b ids ->
  upper_corner32 D rows ids b (hi32 D rows ids b).
Proof.
  intros Hl Hb d Hd. destruct (hi_attained 0 D rows ids Hl b d Hd Hb) as (i & Hi & Hbi & E).
  exists i. split; [exact Hi|]. split; [exact Hbi|].
  split.
  - intros j Hj Hbj. pose proof (hi_ge 0 D rows ids Hl b j d Hd Hj Hbj). lra.
  - change (nth d (hi32 D rows ids b) 0%Q) with (coord (hi32 D rows ids b) d). unfold hi32, hi_of in *.
    rewrite coord_map in * by now rewrite red_max_length. apply f32_comp. change (f32 (1 # 1000000000)) with margin32. lra.
Qed.

(** C54, cells. In a float32 grid the computed cell of every point lies
    between 0 and the number of cells. It is the number of cells, one beyond
    the last cell, only if the computed positions of the point and of the
    upper corner coincide and are that integer. *)
Lemma C54_cells_proof :
  forall eps D rows ids B p cs g,
    cloud GPU eps D rows ids B p -> float32_batch D rows ids -> mk_grid32 GPU p cs = Ok g ->
    gcells g = all_dims D (map f32 cs) /\
    exists lo hi : nat -> list Q,
      (forall b, In b ids -> lower_corner32 D rows ids b (lo b) /\ upper_corner32 D rows ids b (hi b)) /\
      forall i d, (i < length ids)%nat -> (d < D)%nat ->
        let n := nth d (gnc g) 0 in
        let pos := position32 (nth d (lo (nth i ids 0%nat)) 0%Q) (nth d (gcells g) 0%Q) in
        0 <= Qfloor (pos (xc rows i d)) <= n /\
        (Qfloor (pos (xc rows i d)) = n ->
         (pos (xc rows i d) == pos (nth d (hi (nth i ids 0%nat)) 0%Q))%Q /\ (pos (xc rows i d) == inject_Z n)%Q).
Proof.
  intros eps D rows ids B p cs g Hc Hf E. apply cloud_is in Hc.
  pose proof (mk_grid32_is GPU eps D rows ids B p cs g Hc E) as G. split; [exact (h_cells _ _ _ _ _ _ G)|].
  pose proof (h_len _ _ _ _ _ _ G) as Hl.
  exists (lo32 D rows ids), (hi32 D rows ids). split.
  - intros b Hb. split; [now apply lo32_corner|now apply hi32_corner].
  - intros i d Hi Hd. cbv zeta. rewrite (h_cells _ _ _ _ _ _ G).
    destruct (cell32_bounds D rows ids B _ g G Hf i d Hi Hd) as [H1 H2]. split; [exact H1|].
    intros H. destruct (H2 H) as [H3 H4]. split; [exact H3|]. eapply Qeq_trans; [exact H3|exact H4].
Qed.

(** C54, keys. If no point is assigned the cell beyond the last one, and all
    cells of the batch can be numbered in 32 bit, two points have the same key
    exactly if they belong to the same element and the same computed cell. *)
Lemma C54_keys_partial_proof :
  forall eps D rows ids B p cs g,
    cloud GPU eps D rows ids B p -> float32_batch D rows ids -> mk_grid32 GPU p cs = Ok g ->
    Z.of_nat B * product (gnc g) <= 2 ^ 31 ->
    exists lo : nat -> list Q,
      (forall b, In b ids -> lower_corner32 D rows ids b (lo b)) /\
      let cell i d := Qfloor (position32 (nth d (lo (nth i ids 0%nat)) 0%Q) (nth d (gcells g) 0%Q) (xc rows i d))%Q in
      ((forall i d, (i < length ids)%nat -> (d < D)%nat -> cell i d <> nth d (gnc g) 0) ->
       forall i j, (i < length ids)%nat -> (j < length ids)%nat ->
         (nth i (gkeys g) 0 = nth j (gkeys g) 0 <->
          nth i ids 0%nat = nth j ids 0%nat /\ forall d, (d < D)%nat -> cell i d = cell j d)).
Proof.
  intros eps D rows ids B p cs g Hc Hf E Ho. apply cloud_is in Hc.
  pose proof (mk_grid32_is GPU eps D rows ids B p cs g Hc E) as G.
  pose proof (h_len _ _ _ _ _ _ G) as Hl.
  exists (lo32 D rows ids). split; [intros b Hb; now apply lo32_corner|]. cbv zeta. rewrite (h_cells _ _ _ _ _ _ G).
  intros Hfit i j Hi Hj. exact (keys32_inj D rows ids B _ g G Hf Hfit Ho i j Hi Hj).
Qed.

(** C54, keys. The box margin does not prevent the cell beyond the last one:
    two points of different computed cells have the same key. *)
Lemma C54_keys_refuted_proof :
  exists rows ids p cs g i j d,
    cloud GPU 0 2 rows ids 1 p /\ float32_batch 2 rows ids /\ mk_grid32 GPU p cs = Ok g /\
    (i < length ids)%nat /\ (j < length ids)%nat /\ (d < 2)%nat /\
    nth i ids 0%nat = nth j ids 0%nat /\ nth i (gkeys g) 0 = nth j (gkeys g) 0 /\
    (forall lo, lower_corner32 2 rows ids 0 lo ->
       Qfloor (position32 (nth d lo 0) (nth d (gcells g) 0) (xc rows i d))%Q <>
       Qfloor (position32 (nth d lo 0) (nth d (gcells g) 0) (xc rows j d))%Q).
Proof.
  set (rows := [[1#1;3#1];[2#1;1#1];[5#2;2#1]] : list point). set (ids := [0;0;0]%nat).
  destruct (mk_grid32 GPU (seg 2 rows ids 1) [1#1]) as [g|] eqn:Eg; [|vm_compute in Eg; discriminate].
  exists rows, ids, (seg 2 rows ids 1), [1#1], g, 0%nat, 1%nat, 0%nat.
  split; [apply seg_cloud; repeat constructor|]. split.
  { intros i d Hi Hd. unfold rows, ids in *. cbn [length] in Hi.
    destruct i as [|[|[|i]]]; [| | |lia]; destruct d as [|[|d]]; try lia; vm_compute; reflexivity. }
  split; [exact Eg|]. vm_compute in Eg. inversion Eg; subst g; clear Eg. cbn [length ids].
  do 3 (split; [repeat constructor|]). split; [reflexivity|]. split; [vm_compute; reflexivity|].
  intros lo Hlo. destruct (Hlo 0%nat ltac:(lia)) as (i & Hi & _ & Hmin & E).
  assert (El : (nth 0 lo 0 == 1)%Q).
  { rewrite E. clear E. specialize (Hmin 0%nat ltac:(cbn; lia) eq_refl). unfold ids in Hi. cbn [length] in Hi.
    destruct i as [|[|[|i]]]; [| | |lia]; vm_compute in Hmin |- *; try reflexivity; exfalso; now apply Hmin. }
  unfold position32.
  assert (Ep : forall x, (f32 (f32 (x - nth 0 lo 0%Q) / 1) == f32 (f32 (x - 1) / 1))%Q).
  { intros x. apply f32_comp. rewrite (f32_comp (x - nth 0 lo 0%Q) (x - 1)) by (rewrite El; reflexivity). reflexivity. }
  cbn [gcells nth]. change (f32 (1#1)) with 1%Q. intros H. 
  rewrite (Qfloor_comp _ _ (Ep (xc rows 0 0))), (Qfloor_comp _ _ (Ep (xc rows 1 0))) in H. vm_compute in H. discriminate.
Qed.

(** C54, search. [test p c] stands for the comparison of the computed distance
    of [p] and [c] with the radius, whatever it is. With cells as large as the
    radius in the first two dimensions and no point in the cell beyond the
    last one, the search returns no pair twice, only pairs of the same element
    that pass the test, and every such pair whose first two coordinates differ
    by at most the radius reduced by a fraction of (number of cells + 2) /
    2^22. *)
Lemma C54_search_partial_proof :
  forall test eps D rows ids B p cs g ceps crows cids CB cp radii,
    cloud GPU eps D rows ids B p -> float32_batch D rows ids -> mk_grid32 GPU p cs = Ok g -> (2 <= D)%nat ->
    Z.of_nat (length ids) < 2 ^ 31 - 1 -> Z.of_nat B * product (gnc g) <= 2 ^ 31 ->
    (forall lo i d, (i < length ids)%nat -> (d < D)%nat -> lower_corner32 D rows ids (nth i ids 0%nat) lo ->
       Qfloor (position32 (nth d lo 0%Q) (nth d (gcells g) 0%Q) (xc rows i d)) <> nth d (gnc g) 0) ->
    cloud GPU ceps D crows cids CB cp -> cids <> [] -> Forall (fun b => (b < B)%nat) cids ->
    (forall d, (d < 2)%nat -> (nth d (all_dims D (map f32 radii)) 0 == nth d (gcells g) 0)%Q) ->
    (forall d, (d < 2)%nat -> (pow2 (-100) <= nth d (gcells g) 0)%Q) ->
    exists rg nbs, snd (find_neighbors32 GPU test g cp radii) = Ok (rg, nbs) /\
      delimits (rdata rg) nbs (length cids) /\ NoDup nbs /\
      (forall j i, In (j, i) nbs ->
         (j < length ids)%nat /\ (i < length cids)%nat /\ nth j (gsbids g) 0%nat = nth i cids 0%nat /\
         test (nth j (gspts g) []) (nth i crows []) = true) /\
      (forall j i, (j < length ids)%nat -> (i < length cids)%nat -> nth j (gsbids g) 0%nat = nth i cids 0%nat ->
         test (nth j (gspts g) []) (nth i crows []) = true ->
         (forall d, (d < 2)%nat ->
            (Qabs (xc (gspts g) j d - xc crows i d) <= safe_radius (nth d (gnc g) 0%Z) (nth d (gcells g) 0))%Q) ->
         In (j, i) nbs).
Proof.
  intros test eps D rows ids B p cs g ceps crows cids CB cp radii Hc Hf E HD HN Ho Hfit Hcc Hne HcB Hrad Hlow.
  apply cloud_is in Hc. apply cloud_is in Hcc. destruct Hcc as [C1 C2 C3 C4 C5 C6 C7 _].
  pose proof (mk_grid32_is GPU eps D rows ids B p cs g Hc E) as G. set (cells := bcast D (map f32 cs)) in *.
  pose proof (h_len _ _ _ _ _ _ G) as Hl. rewrite (h_cells _ _ _ _ _ _ G) in *.
  assert (Hfit' : forall i d, (i < length ids)%nat -> (d < D)%nat -> cell32 D rows ids cells i d <> nth d (gnc g) 0).
  { intros i d Hi Hd. apply Hfit; auto. apply lo32_corner; [exact Hl|]. apply nth_In. exact Hi. }
  change (all_dims D (map f32 radii)) with (bcast D (map f32 radii)) in Hrad.
  assert (P : forall d, (d < 2)%nat -> (0 < nth d (bcast D (map f32 radii)) 0)%Q).
  { intros d Hd. rewrite (Hrad d Hd). apply (h_cells_pos _ _ _ _ _ _ G). lia. }
  pose proof (P 0%nat ltac:(lia)) as P0. pose proof (P 1%nat ltac:(lia)) as P1.
  destruct (nth1_pos _ P1) as (r0 & r1 & rr & Er). rewrite Er in *. cbn [nth] in P0, P1.
  destruct (find32_ok D rows ids B cells g G Hf Hfit' Ho test crows cids cp radii HD HN C1 C2 C4 C5 HcB r0 r1 rr Er P0 P1 Hne)
    as (ds & Eds & Efind).
  set (cc := cc32 D rows ids r0 r1) in *. set (bl := map (kblk g test cc ds) (combine crows cids)) in *.
  assert (Lb : length bl = length cids) by (unfold bl; rewrite map_length, combine_length; lia).
  assert (Hblk : forall i, (i < length cids)%nat -> nth i bl [] = kblk g test cc ds (nth i crows [], nth i cids 0%nat)).
  { intros i Hi. unfold bl. rewrite (nth_indep _ [] (kblk g test cc ds ([], 0%nat))) by (rewrite map_length, combine_length; lia).
    rewrite map_nth. now rewrite combine_nth by exact C5. }
  assert (Hid : forall i, (i < length cids)%nat -> (nth i cids 0 < B)%nat).
  { intros i Hi. rewrite Forall_forall in HcB. apply HcB, nth_In, Hi. }
  pose proof (k_blk_ok D rows ids B (cell32 D rows ids cells) g Hl (h_ids _ _ _ _ _ _ G) (nc32_length D rows ids B cells g G)
     (cell32_in D rows ids B cells g G Hf Hfit') (keys32 D rows ids B cells g G Hf Hfit') (h_sidx _ _ _ _ _ _ G) (h_skeys _ _ _ _ _ _ G)
     (h_sbids _ _ _ _ _ _ G) (nc32_pos D rows ids B cells g G) Ho HD HN test cc ds Eds) as HB.
  eexists. eexists. split; [exact Efind|]. cbn [rdata]. split; [rewrite <- Lb; apply delimits_tagged|].
  split.
  { apply tagged_NoDup. apply Forall_forall. intros l Hin. apply (In_nth _ _ []) in Hin as (i & Hi & <-). rewrite Lb in Hi.
    rewrite Hblk by exact Hi. apply HB. now apply Hid. }
  split.
  - intros j i Hin. apply tagged_In in Hin as (Hi & Hj). rewrite Nat.sub_0_r in *.
    assert (Hi2 : (i < length cids)%nat) by lia. rewrite Hblk in Hj by exact Hi2.
    destruct (HB (nth i crows [], nth i cids 0%nat) (Hid i Hi2)) as (_ & H & _). destruct (H j Hj) as (H1 & H2 & H3). auto.
  - intros j i Hj Hi Hb Ht Hd. apply tagged_In. split; [lia|]. rewrite Nat.sub_0_r, Hblk by exact Hi.
    destruct (HB (nth i crows [], nth i cids 0%nat) (Hid i Hi)) as (_ & _ & H). cbn [fst snd] in H.
    assert (Hsj : (nth j (gsidx g) 0 < length ids)%nat).
    { exact (k_sidx_lt D rows ids B (cell32 D rows ids cells) g Hl (nc32_length D rows ids B cells g G)
        (keys32 D rows ids B cells g G Hf Hfit') (h_sidx _ _ _ _ _ _ G) j Hj). }
    assert (Hadj : forall d, (d < 2)%nat -> (nth d [r0; r1] 0 == coord cells d)%Q ->
      -1 <= kcell (cell32 D rows ids cells) g j d - raw_cell32 (lo32 D rows ids (nth i cids 0%nat)) [r0; r1] (nth i crows []) d <= 1).
    { intros d Hd2 Er2. unfold kcell, cell32, raw_cell32, quotient32.
      assert (Esb : nth (nth j (gsidx g) 0%nat) ids 0%nat = nth i cids 0%nat).
      { rewrite <- Hb. symmetry. eapply k_sbids_nth; eauto using h_sidx, h_sbids, keys32. }
      assert (Esp : coord (nth (nth j (gsidx g) 0%nat) rows []) d = xc (gspts g) j d).
      { unfold xc, coord. f_equal. symmetry. eapply k_spts_nth; eauto using h_sidx, h_spts, keys32. }
      pose proof (cell32_in D rows ids B cells g G Hf Hfit' _ d Hsj ltac:(lia)) as R1. unfold cell32, raw_cell32, quotient32 in R1.
      rewrite Esb, Esp in *. set (lo := coord (lo32 D rows ids (nth i cids 0%nat)) d) in *.
      change (coord (nth i crows []) d) with (xc crows i d).
      assert (Eq : (f32 (f32 (xc crows i d - lo) / coord [r0; r1] d) == f32 (f32 (xc crows i d - lo) / coord cells d))%Q).
      { apply f32_comp. change (coord [r0; r1] d) with (nth d [r0; r1] 0%Q). rewrite Er2. reflexivity. }
      rewrite (Qfloor_comp _ _ Eq).
      apply (cells_adjacent _ _ _ (nth d (gnc g) 0)); [apply Hlow; exact Hd2|apply (nc32_pos D rows ids B cells g G); lia|exact R1|].
      specialize (Hd d Hd2). unfold safe_radius in Hd. change (coord cells d) with (nth d cells 0%Q).
      setoid_replace (xc (gspts g) j d - lo - (xc crows i d - lo))%Q with (xc (gspts g) j d - xc crows i d)%Q by ring. exact Hd. }
    apply H; auto.
    + apply (Hadj 0%nat); [lia|]. exact (Hrad 0%nat ltac:(lia)).
    + apply (Hadj 1%nat); [lia|]. exact (Hrad 1%nat ltac:(lia)).
Qed.

Lemma corner32_unique D rows ids b lo lo' d : (d < D)%nat ->
  lower_corner32 D rows ids b lo -> lower_corner32 D rows ids b lo' -> (nth d lo 0 == nth d lo' 0)%Q.
Proof.
  intros Hd H1 H2. destruct (H1 d Hd) as (i & Hi & Hb & Hm & E). destruct (H2 d Hd) as (i' & Hi' & Hb' & Hm' & E').
  rewrite E, E'. apply f32_comp. assert (H : (xc rows i d == xc rows i' d)%Q) by (apply Qle_antisym; auto). rewrite H. reflexivity.
Qed.
Lemma position32_comp lo lo' c x : (lo == lo')%Q -> Qfloor (position32 lo c x) = Qfloor (position32 lo' c x).
Proof.
  intros H. apply Qfloor_comp. unfold position32. apply f32_comp.
  rewrite (f32_comp (x - lo) (x - lo')) by (rewrite H; reflexivity). reflexivity.
Qed.

(** A batch with coordinates about 0.1, 1.1, 1.5, 1.8, 2.2 and 2.5 for a
    radius of 0.7. *)
Definition ex54_low : Q := 13421773 # 134217728.
Definition ex54_mid : Q := 12582911 # 8388608.
Definition ex54_far : Q := 9227468 # 4194304.
Definition ex54_rows : list point :=
  [[ex54_low; ex54_low]; [ex54_low; f32 (11 # 10)]; [ex54_mid; ex54_low]; [ex54_mid; f32 (11 # 10)];
   [f32 (18 # 10); ex54_low]; [f32 (18 # 10); f32 (11 # 10)]; [ex54_far; ex54_low]; [f32 (25 # 10); f32 (11 # 10)]].
Definition ex54_ids : list nat := repeat 0%nat 8.
Definition ex54_cloud : pc := seg 2 ex54_rows ex54_ids 1.

Lemma ex54_batch : float32_batch 2 ex54_rows ex54_ids.
Proof.
  intros i d Hi Hd. change (length ex54_ids) with 8%nat in Hi.
  do 8 (destruct i as [|i]; [destruct d as [|[|d]]; [vm_compute; reflexivity..|lia]|]). lia.
Qed.

Lemma ex54_fits g : mk_grid32 GPU ex54_cloud [7 # 10] = Ok g ->
  forall lo i d, (i < length ex54_ids)%nat -> (d < 2)%nat -> lower_corner32 2 ex54_rows ex54_ids (nth i ex54_ids 0%nat) lo ->
    Qfloor (position32 (nth d lo 0%Q) (nth d (gcells g) 0%Q) (xc ex54_rows i d)) <> nth d (gnc g) 0.
Proof.
  intros Eg lo i d Hi Hd Hlo.
  assert (E0 : nth i ex54_ids 0%nat = 0%nat).
  { change (length ex54_ids) with 8%nat in Hi. do 8 (destruct i as [|i]; [reflexivity|]). lia. }
  rewrite E0 in Hlo.
  rewrite (position32_comp _ (nth d (lo32 2 ex54_rows ex54_ids 0) 0%Q)).
  2:{ apply (corner32_unique 2 ex54_rows ex54_ids 0); [exact Hd|exact Hlo|]. apply lo32_corner; [reflexivity|]. cbn. now left. }
  vm_compute in Eg. inversion Eg; subst g; clear Eg. change (length ex54_ids) with 8%nat in Hi.
  do 8 (destruct i as [|i]; [destruct d as [|[|d]]; [vm_compute; discriminate..|lia]|]). lia.
Qed.

Example C54_cells_ex_proof :
  exists g, cloud GPU 0 2 ex54_rows ex54_ids 1 ex54_cloud /\ float32_batch 2 ex54_rows ex54_ids /\
    mk_grid32 GPU ex54_cloud [7 # 10] = Ok g /\ gnc g = [4; 2] /\ gkeys g = [0; 1; 2; 3; 4; 5; 6; 7].
Proof.
  destruct (mk_grid32 GPU ex54_cloud [7 # 10]) as [g|] eqn:Eg; [|vm_compute in Eg; discriminate].
  exists g. split; [apply seg_cloud; [reflexivity|repeat constructor|repeat constructor]|]. split; [exact ex54_batch|]. split; [reflexivity|].
  vm_compute in Eg. inversion Eg; subst g. split; reflexivity.
Qed.

Example C54_keys_partial_ex_proof :
  exists g, mk_grid32 GPU ex54_cloud [7 # 10] = Ok g /\ Z.of_nat 1 * product (gnc g) <= 2 ^ 31 /\
    forall lo, lower_corner32 2 ex54_rows ex54_ids 0 lo -> forall i d, (i < 8)%nat -> (d < 2)%nat ->
      Qfloor (position32 (nth d lo 0%Q) (nth d (gcells g) 0%Q) (xc ex54_rows i d)) <> nth d (gnc g) 0.
Proof.
  destruct (mk_grid32 GPU ex54_cloud [7 # 10]) as [g|] eqn:Eg; [|vm_compute in Eg; discriminate].
  exists g. split; [reflexivity|]. split; [vm_compute in Eg; inversion Eg; vm_compute; discriminate|].
  intros lo Hlo i d Hi Hd. apply (ex54_fits g Eg); auto.
  assert (E0 : nth i ex54_ids 0%nat = 0%nat) by (do 8 (destruct i as [|i]; [reflexivity|]); lia). now rewrite E0.
Qed.

(** The distance test of the following example and refutation: exact distances
    below the float32 number nearest to 0.7. *)
Definition ex54_test (p c : point) : bool := norm_lt p c (f32 (7 # 10)).

Example C54_search_partial_ex_proof :
  exists g rg nbs, mk_grid32 GPU ex54_cloud [7 # 10] = Ok g /\
    (forall d, (d < 2)%nat -> (nth d (all_dims 2 (map f32 [7 # 10])) 0 == nth d (gcells g) 0)%Q) /\
    (forall d, (d < 2)%nat -> (pow2 (-100) <= nth d (gcells g) 0)%Q) /\
    snd (find_neighbors32 GPU ex54_test g (seg 2 [[ex54_mid; ex54_low]; [2 # 1; 1 # 2]] [0;0]%nat 1) [7 # 10]) = Ok (rg, nbs) /\
    nbs = [(3,0);(5,0);(1,1);(2,1);(3,1);(5,1)]%nat /\
    (forall d, (d < 2)%nat ->
       (Qabs (xc (gspts g) 3 d - xc [[ex54_mid; ex54_low]; [2 # 1; 1 # 2]] 0 d) <= safe_radius (nth d (gnc g) 0%Z) (nth d (gcells g) 0))%Q).
Proof.
  destruct (mk_grid32 GPU ex54_cloud [7 # 10]) as [g|] eqn:Eg; [|vm_compute in Eg; discriminate].
  exists g. eexists. eexists. split; [reflexivity|]. vm_compute in Eg. inversion Eg; subst g; clear Eg.
  split; [intros [|[|d]] Hd; [vm_compute; reflexivity..|lia]|].
  split; [intros [|[|d]] Hd; [vm_compute; discriminate..|lia]|].
  split; [vm_compute; reflexivity|]. split; [vm_compute; reflexivity|].
  intros [|[|d]] Hd; [vm_compute; discriminate..|lia].
Qed.

(** C54, search. With the exact distance as test, in a batch whose points all
    lie inside the grid, a point closer than the radius is not found: the
    rounded positions of the two points are two cells apart. *)
Lemma C54_search_refuted_proof :
  exists rows ids p r g crows cids cp rg nbs j i,
    cloud GPU 0 2 rows ids 1 p /\ float32_batch 2 rows ids /\ is_float32 r /\ mk_grid32 GPU p [r] = Ok g /\
    (forall lo i d, (i < length ids)%nat -> (d < 2)%nat -> lower_corner32 2 rows ids (nth i ids 0%nat) lo ->
       Qfloor (position32 (nth d lo 0%Q) (nth d (gcells g) 0%Q) (xc rows i d)) <> nth d (gnc g) 0) /\
    cloud GPU 0 2 crows cids 1 cp /\ float32_batch 2 crows cids /\
    snd (find_neighbors32 GPU (fun a b => norm_lt a b r) g cp [r]) = Ok (rg, nbs) /\
    near 2 r (gspts g) (gsbids g) crows cids j i /\ ~ In (j, i) nbs.
Proof.
  assert (Ef : forall g, mk_grid32 GPU ex54_cloud [f32 (7 # 10)] = Ok g -> mk_grid32 GPU ex54_cloud [7 # 10] = Ok g).
  { intros g Hg. rewrite <- Hg. vm_compute. reflexivity. }
  destruct (mk_grid32 GPU ex54_cloud [f32 (7 # 10)]) as [g|] eqn:Eg; [|vm_compute in Eg; discriminate].
  set (crows := [[ex54_mid; ex54_low]; [2 # 1; 1 # 2]] : list point). set (cids := [0;0]%nat).
  exists ex54_rows, ex54_ids, ex54_cloud, (f32 (7 # 10)), g, crows, cids, (seg 2 crows cids 1).
  eexists. eexists. exists 1%nat, 0%nat.
  split; [apply seg_cloud; [reflexivity|repeat constructor|repeat constructor]|]. split; [exact ex54_batch|].
  split; [apply f32_f32|]. split; [exact Eg|]. split; [exact (ex54_fits g (Ef g eq_refl))|].
  split; [apply seg_cloud; [reflexivity|repeat constructor|repeat constructor]|].
  split. { intros i d Hi Hd. change (length cids) with 2%nat in Hi. do 2 (destruct i as [|i]; [destruct d as [|[|d]]; [vm_compute; reflexivity..|lia]|]). lia. }
  vm_compute in Eg. inversion Eg; subst g; clear Eg Ef.
  split; [vm_compute; reflexivity|].
  split; [split; [cbn; lia|split; [cbn; lia|split; [reflexivity|vm_compute; reflexivity]]]|].
  intros H. vm_compute in H. repeat (destruct H as [H|H]; [discriminate|]). exact H.
Qed.
