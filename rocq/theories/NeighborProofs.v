(** Proofs of the neighbor search properties (C14-C18). The statements are
    copied verbatim into PropertiesNeighbors.v. *)
From Coq Require Import List Arith ZArith QArith Qround Lia Lqa Bool Permutation Sorted.
From Verif Require Import Tensor TensorFacts Spec PointCloud SpecCloud History PointCloudFacts QFacts
  CloudProofs Grid SpecGrid GridFacts GridProofs Neighbors SpecNeighbors NeighborFacts.
Import ListNotations.
Local Open Scope Z_scope.

(** Segmented clouds, for the examples. *)
Definition seg (D : nat) (rows : list point) (ids : list nat) (B : nat) : pc :=
  PC rows D ids B None None None None None (argsort_ids ids).

Lemma seg_cloud dev eps D rows ids B :
  length rows = length ids -> Forall (fun b => (b < B)%nat) ids -> Forall (fun r => length r = D) rows ->
  cloud dev eps D rows ids B (seg D rows ids B).
Proof.
  intros H1 H2 H3. apply (cloud_new _ _ _ _ _ _ (P2 D rows) (Some ids) (Some B) None); auto.
  unfold init. cbn. now rewrite H1, Nat.eqb_refl.
Qed.

Lemma nth1_pos (l : list Q) : (0 < nth 1 l 0)%Q -> exists r0 r1 rr, l = r0 :: r1 :: rr.
Proof. destruct l as [|a [|b l]]; cbn; intros H; try (exfalso; lra). eauto. Qed.

(** C14. Grid search on a device that reads zeros out of range (GPU). For a
    grid of any cloud and any centers, inside or outside its bounding box, in
    two or more dimensions, with the search radii equal to the cell sizes in
    the two dimensions of the access structure: every pair of a point and a
    center of the same element at distance below the (first) radius is
    returned exactly once, and nothing else. *)
Lemma C14_neighbors_partial_proof :
  forall eps D rows ids B cs g ceps crows cids CB cp radii max_neighbors,
    grid_for GPU eps D rows ids B cs g -> valid_sizes D cs -> (2 <= D)%nat ->
    (0 <= eps)%Q -> fits eps D (all_dims D cs) rows ids ->
    Z.of_nat (length ids) < 2 ^ 31 - 1 -> Z.of_nat B * product (gnc g) <= 2 ^ 31 ->
    cloud GPU ceps D crows cids CB cp -> cids <> [] -> Forall (fun b => (b < B)%nat) cids ->
    (nth 0 (all_dims D radii) 0 == nth 0 (all_dims D cs) 0)%Q ->
    (nth 1 (all_dims D radii) 0 == nth 1 (all_dims D cs) 0)%Q ->
    (nth 0 (all_dims D radii) 0 <= nth 1 (all_dims D radii) 0)%Q ->
    exists rg nbs, snd (find_neighbors_tf GPU g cp radii max_neighbors) = Ok (rg, nbs) /\
      NoDup nbs /\
      forall j i, In (j, i) nbs <->
        near D (nth 0 (all_dims D radii) 0%Q) (gspts g) (gsbids g) crows cids j i.
Proof.
  intros eps D rows ids B cs g ceps crows cids CB cp radii mx Hg Hv HD He Hf HN Ho Hc Hne HcB Hr0 Hr1 Hr.
  pose proof (grid_for_is _ _ _ _ _ _ _ _ Hv Hg) as G.
  apply cloud_is in Hc. destruct Hc as [C1 C2 C3 C4 C5 C6 C7 _].
  change (all_dims D cs) with (bcast D cs) in *. change (all_dims D radii) with (bcast D radii) in *.
  pose proof (ig_cells_pos _ _ _ _ _ _ _ _ G) as Hpos.
  assert (P0 : (0 < nth 0 (bcast D radii) 0)%Q) by (rewrite Hr0; apply Hpos; lia).
  assert (P1 : (0 < nth 1 (bcast D radii) 0)%Q) by (rewrite Hr1; apply Hpos; lia).
  destruct (nth1_pos _ P1) as (r0 & r1 & rr & Er). rewrite Er in *. cbn [nth] in *.
  eexists. eexists. split.
  - eapply find_tf_ok; eauto.
  - split; [apply tagged_NoDup, blocks_NoDup|]. intros j i. eapply blocks_In; eauto.
Qed.

Definition exN_rows : list point := [[0#1;0#1];[1#2;1#2];[5#2;0#1];[3#1;3#1];[1#2;1#2];[9#10;9#10]].
Definition exN_ids : list nat := [0;0;0;0;1;1]%nat.
Definition exN_centers : list point := [[-1#2;0#1];[1#1;1#1];[7#2;0#1];[100#1;0#1];[0#1;0#1]].
Definition exN_cids : list nat := [0;0;0;0;1]%nat.

Example C14_neighbors_partial_ex_proof :
  exists g rg nbs,
    grid_for GPU (1#1000) 2 exN_rows exN_ids 2 [1#1] g /\ fits (1#1000) 2 (all_dims 2 [1#1]) exN_rows exN_ids /\
    gsidx g = [4; 5; 3; 2; 0; 1]%nat /\
    snd (find_neighbors_tf GPU g (seg 2 exN_centers exN_cids 2) [1#1] 0) = Ok (rg, nbs) /\
    nbs = [(4,0);(5,1);(0,4)]%nat /\ rdata rg = [1;2;2;2;3].
Proof.
  destruct (mk_grid GPU (1#1000) (seg 2 exN_rows exN_ids 2) [1#1]) as [g|] eqn:Eg; [|vm_compute in Eg; discriminate].
  exists g. eexists. eexists. split.
  { eapply grid_new; [|exact Eg]. apply seg_cloud; repeat constructor. }
  split; [left; reflexivity|].
  vm_compute in Eg. inversion Eg; subst g. clear Eg. split; [vm_compute; reflexivity|].
  split; [vm_compute; reflexivity|]. split; vm_compute; reflexivity.
Qed.

(** C14, boundary. Without effective margin, when an extent is a multiple of
    the cell size, a point may be missing even in its own neighborhood. *)
Lemma C14_boundary_refuted_proof :
  exists rows ids cs g cp rg nbs j i,
    grid_for GPU 0 2 rows ids 1 cs g /\ valid_sizes 2 cs /\ cloud GPU 0 2 rows ids 1 cp /\
    snd (find_neighbors_tf GPU g cp cs 0) = Ok (rg, nbs) /\
    nth j (gsidx g) 0%nat = i /\
    near 2 (nth 0 cs 0%Q) (gspts g) (gsbids g) rows ids j i /\ ~ In (j, i) nbs.
Proof.
  set (rows := [[0#1;3#1];[3#2;0#1]] : list point). set (ids := [0;0]%nat).
  destruct (mk_grid GPU 0 (seg 2 rows ids 1) [1#1]) as [g|] eqn:Eg; [|vm_compute in Eg; discriminate].
  assert (Hg : grid_for GPU 0 2 rows ids 1 [1#1] g).
  { eapply grid_new; [|exact Eg]. apply seg_cloud; repeat constructor. }
  exists rows, ids, [1#1], g, (seg 2 rows ids 1).
  destruct (snd (find_neighbors_tf GPU g (seg 2 rows ids 1) [1#1] 0)) as [[rg nbs]|] eqn:En;
    [|vm_compute in Eg; inversion Eg; subst g; vm_compute in En; discriminate].
  exists rg, nbs, 0%nat, 0%nat. split; [exact Hg|]. split; [split; [reflexivity|repeat constructor]|].
  split; [apply seg_cloud; repeat constructor|]. split; [reflexivity|].
  vm_compute in Eg; inversion Eg; subst g; clear Eg. vm_compute in En. inversion En; subst rg nbs.
  split; [reflexivity|]. split; [split; [cbn; lia|split; [cbn; lia|split; [reflexivity|vm_compute; reflexivity]]]|].
  cbn. intros [H|H]; [discriminate|contradiction].
Qed.

(** C15, grid search. Whenever the search returns, whatever the radii and the
    device, the ranges delimit the rows of every center, including those
    without neighbors. The ranges have shape [[number of centers]] unless
    there is exactly one center. *)
Lemma C15_ranges_partial_proof :
  forall dev eps D rows ids B cs g ceps crows cids CB cp radii max_neighbors rg nbs,
    grid_for dev eps D rows ids B cs g -> valid_sizes D cs ->
    cloud dev ceps D crows cids CB cp -> Forall (fun b => (b < B)%nat) cids ->
    Forall (fun r => (0 < r)%Q) (all_dims D radii) ->
    snd (find_neighbors_tf dev g cp radii max_neighbors) = Ok (rg, nbs) ->
    delimits (rdata rg) nbs (length cids) /\
    (length cids <> 1%nat -> rshape rg = [length cids]).
Proof.
  intros dev eps D rows ids B cs g ceps crows cids CB cp radii mx rg nbs Hg Hv Hc HcB Hr E.
  pose proof (grid_for_is _ _ _ _ _ _ _ _ Hv Hg) as G.
  apply cloud_is in Hc. destruct Hc as [C1 C2 C3 C4 C5 C6 C7 _].
  change (all_dims D radii) with (bcast D radii) in *.
  destruct (bcast D radii) as [|r0 [|r1 rr]] eqn:Er.
  1,2: unfold find_neighbors_tf in E; rewrite (ic_dim _ _ _ _ _ _ _ (ig_cloud _ _ _ _ _ _ _ _ G)), Er in E; discriminate.
  apply Forall_cons_iff in Hr as [P0 Hr]. apply Forall_cons_iff in Hr as [P1 _].
  destruct (find_tf_sound dev eps D rows ids B _ g G crows cids cp radii mx C1 C2 C4 C5 C7 HcB r0 r1 rr Er P0 P1 rg nbs E)
    as (_ & _ & Hd & Hs & _).
  split; [exact Hd|]. intros Hn. rewrite Hs. unfold shape_of. destruct (length cids) as [|[|n]]; congruence.
Qed.

Example C15_ranges_partial_ex_proof :
  exists g rg nbs,
    grid_for GPU (1#1000) 2 exN_rows exN_ids 2 [1#1] g /\
    snd (find_neighbors_tf GPU g (seg 2 exN_centers exN_cids 2) [1#1] 0) = Ok (rg, nbs) /\
    rshape rg = [5]%nat /\ rdata rg = [1;2;2;2;3] /\ nbs = [(4,0);(5,1);(0,4)]%nat.
Proof.
  destruct C14_neighbors_partial_ex_proof as (g & rg & nbs & Hg & _ & Hs & E & E1 & E2).
  exists g, rg, nbs. split; [exact Hg|]. split; [exact E|]. split; [|auto].
  refine (proj2 (C15_ranges_partial_proof GPU (1#1000) 2 exN_rows exN_ids 2 [1#1] g 0 exN_centers exN_cids 2
    _ [1#1] 0 rg nbs Hg _ _ _ _ E) _).
  - split; [reflexivity|repeat constructor].
  - apply seg_cloud; repeat constructor.
  - repeat constructor.
  - repeat constructor.
  - discriminate.
Qed.

(** C15. For a single center the ranges are a scalar, not a tensor of shape
    [[1]]: whenever the search returns. *)
Lemma C15_single_center_refuted_proof :
  forall dev eps D rows ids B cs g ceps c b CB cp radii max_neighbors rg nbs,
    grid_for dev eps D rows ids B cs g -> valid_sizes D cs ->
    cloud dev ceps D [c] [b] CB cp -> (b < B)%nat ->
    Forall (fun r => (0 < r)%Q) (all_dims D radii) ->
    snd (find_neighbors_tf dev g cp radii max_neighbors) = Ok (rg, nbs) ->
    rshape rg = [].
Proof.
  intros dev eps D rows ids B cs g ceps c b CB cp radii mx rg nbs Hg Hv Hc Hb Hr E.
  pose proof (grid_for_is _ _ _ _ _ _ _ _ Hv Hg) as G.
  apply cloud_is in Hc. destruct Hc as [C1 C2 C3 C4 C5 C6 C7 _].
  change (all_dims D radii) with (bcast D radii) in *.
  destruct (bcast D radii) as [|r0 [|r1 rr]] eqn:Er.
  1,2: unfold find_neighbors_tf in E; rewrite (ic_dim _ _ _ _ _ _ _ (ig_cloud _ _ _ _ _ _ _ _ G)), Er in E; discriminate.
  apply Forall_cons_iff in Hr as [P0 Hr]. apply Forall_cons_iff in Hr as [P1 _].
  assert (HcB : Forall (fun b => (b < B)%nat) [b]) by (constructor; auto).
  destruct (find_tf_sound dev eps D rows ids B _ g G [c] [b] cp radii mx C1 C2 C4 C5 C7 HcB r0 r1 rr Er P0 P1 rg nbs E)
    as (_ & _ & _ & Hs & _). exact Hs.
Qed.

Example C15_single_center_refuted_ex_proof :
  exists g rg, grid_for GPU (1#1000) 2 exN_rows exN_ids 2 [1#1] g /\
    snd (find_neighbors_tf GPU g (seg 2 [[1#1;1#1]] [0%nat] 2) [1#1] 0) = Ok (rg, [(5,0)]%nat).
Proof.
  destruct (mk_grid GPU (1#1000) (seg 2 exN_rows exN_ids 2) [1#1]) as [g|] eqn:Eg; [|vm_compute in Eg; discriminate].
  exists g. eexists. split.
  { eapply grid_new; [|exact Eg]. apply seg_cloud; repeat constructor. }
  vm_compute in Eg. inversion Eg; subst g. clear Eg. vm_compute; reflexivity.
Qed.

(** C15, brute force search. The ranges are correct if every center has a
    neighbor. *)
Lemma C15_brute_force_partial_proof :
  forall dev eps D rows ids B p ceps crows cids CB cp radius rg nbs,
    cloud dev eps D rows ids B p -> cloud dev ceps D crows cids CB cp -> (0 <= radius)%Q ->
    find_neighbors_no_grid dev p cp radius = Ok (rg, nbs) ->
    (forall i, (i < length cids)%nat -> exists j, within D radius rows ids crows cids j i) ->
    rshape rg = [length cids] /\ delimits (rdata rg) nbs (length cids).
Proof.
  intros dev eps D rows ids B p ceps crows cids CB cp r rg nbs Hp Hc Hr E Hall.
  apply cloud_is in Hp. destruct Hp as [P1 P2 P3 P4 P5 P6 P7 _].
  apply cloud_is in Hc. destruct Hc as [C1 C2 C3 C4 C5 C6 C7 _].
  rewrite (brute_ok rows crows ids cids D p cp r dev) in E by assumption.
  inversion E; subst rg nbs. cbn [rshape rdata]. split; [reflexivity|].
  set (bl := bblocks rows crows ids cids r) in *.
  assert (Lb : length bl = length cids) by (eapply bblocks_length; eassumption).
  assert (Em : map (fun i => match nth i bl [] with [] => int32_min | _ :: _ => nth i (cum_ends 0 bl) 0 end) (seq 0 (length cids)) = cum_ends 0 bl).
  { rewrite (nth_map_seq' (cum_ends 0 bl) 0) at 1. rewrite cum_ends_length, Lb. apply map_ext_in.
    intros i Hi. apply in_seq in Hi. destruct (Hall i ltac:(lia)) as [j Hj].
    apply (bblocks_In rows crows ids cids D r) in Hj; try assumption. apply tagged_In in Hj as [_ Hj]. rewrite Nat.sub_0_r in Hj.
    fold bl in Hj. destruct (nth i bl []); [contradiction|].
    rewrite (nth_map_seq' (cum_ends 0 bl) 0) at 1. rewrite cum_ends_length, nth_map_seq by lia. reflexivity. }
  rewrite Em, <- Lb. apply delimits_tagged.
Qed.

Example C15_brute_force_partial_ex_proof :
  exists rg, find_neighbors_no_grid CPU (seg 2 exN_rows exN_ids 2) (seg 2 exN_rows exN_ids 2) (1#1) = Ok (rg,
    [(0,0);(1,0);(0,1);(1,1);(2,2);(3,3);(4,4);(5,4);(4,5);(5,5)]%nat) /\ rdata rg = [2;4;5;6;8;10].
Proof. eexists. split; vm_compute; reflexivity. Qed.

(** C15, brute force search. A center without neighbors gets the lowest int32
    as end of its range: the next center's rows are not delimited either. *)
Lemma C15_brute_force_refuted_proof :
  exists rows ids crows cids radius rg nbs,
    find_neighbors_no_grid CPU (seg 2 rows ids 1) (seg 2 crows cids 1) radius = Ok (rg, nbs) /\
    cloud CPU 0 2 rows ids 1 (seg 2 rows ids 1) /\ cloud CPU 0 2 crows cids 1 (seg 2 crows cids 1) /\
    ~ delimits (rdata rg) nbs (length cids).
Proof.
  exists [[0#1;0#1]], [0%nat], [[5#1;0#1];[0#1;0#1]], [0;0]%nat, (1#1). eexists. eexists.
  split; [vm_compute; reflexivity|]. split; [apply seg_cloud; repeat constructor|].
  split; [apply seg_cloud; repeat constructor|].
  intros (_ & _ & H). specialize (H 0%nat ltac:(cbn; lia)). cbn in H. lia.
Qed.

(** C16. On CPU the fallback search gives the same correct result as long as
    no center lies in the last cell, or beyond, of the first two dimensions. *)
Lemma C16_cpu_partial_proof :
  forall eps D rows ids B cs g ceps crows cids CB cp radii max_neighbors lo,
    grid_for CPU eps D rows ids B cs g -> valid_sizes D cs -> (2 <= D)%nat ->
    (0 <= eps)%Q -> fits eps D (all_dims D cs) rows ids ->
    Z.of_nat (length ids) < 2 ^ 31 - 1 -> Z.of_nat B * product (gnc g) <= 2 ^ 31 ->
    cloud CPU ceps D crows cids CB cp -> cids <> [] -> Forall (fun b => (b < B)%nat) cids ->
    (nth 0 (all_dims D radii) 0 == nth 0 (all_dims D cs) 0)%Q ->
    (nth 1 (all_dims D radii) 0 == nth 1 (all_dims D cs) 0)%Q ->
    (nth 0 (all_dims D radii) 0 <= nth 1 (all_dims D radii) 0)%Q ->
    (forall b, In b cids -> In b ids /\ lower_corner D eps rows ids b (lo b)) ->
    (forall i d, (i < length cids)%nat -> (d < 2)%nat ->
       Z.max 0 (cell (lo (nth i cids 0%nat)) (all_dims D cs) (nth i crows []) d) < nth d (gnc g) 0 - 1) ->
    exists rg nbs, snd (find_neighbors_tf CPU g cp radii max_neighbors) = Ok (rg, nbs) /\
      NoDup nbs /\
      forall j i, In (j, i) nbs <->
        near D (nth 0 (all_dims D radii) 0%Q) (gspts g) (gsbids g) crows cids j i.
Proof.
  intros eps D rows ids B cs g ceps crows cids CB cp radii mx lo Hg Hv HD He Hf HN Ho Hc Hne HcB Hr0 Hr1 Hr Hlo Hin.
  pose proof (grid_for_is _ _ _ _ _ _ _ _ Hv Hg) as G.
  apply cloud_is in Hc. destruct Hc as [C1 C2 C3 C4 C5 C6 C7 _].
  change (all_dims D cs) with (bcast D cs) in *. change (all_dims D radii) with (bcast D radii) in *.
  pose proof (ig_cells_pos _ _ _ _ _ _ _ _ G) as Hpos.
  assert (P0 : (0 < nth 0 (bcast D radii) 0)%Q) by (rewrite Hr0; apply Hpos; lia).
  assert (P1 : (0 < nth 1 (bcast D radii) 0)%Q) by (rewrite Hr1; apply Hpos; lia).
  destruct (nth1_pos _ P1) as (r0 & r1 & rr & Er). rewrite Er in *. cbn [nth] in *.
  eexists. eexists. split.
  - eapply find_tf_ok; eauto. right. intros i Hi d Hd.
    specialize (Hin i d Hi Hd). destruct (Hlo (nth i cids 0%nat) ltac:(now apply nth_In)) as [Hb Hl].
    pose proof (lo_corner eps D rows ids (g_len _ _ _ _ _ _ _ _ G) _ Hb) as Hl'.
    replace (ccell eps D rows ids r0 r1 (nth i crows []) (nth i cids 0%nat) d)
      with (cell (lo (nth i cids 0%nat)) (bcast D cs) (nth i crows []) d); [exact Hin|].
    unfold ccell, raw_cell, cell, coord. apply Qfloor_comp.
    assert (Elo : (nth d (lo (nth i cids 0%nat)) 0 == nth d (lo_of eps D rows ids (nth i cids 0%nat)) 0)%Q).
    { destruct (Hl d ltac:(lia)) as [A1 (a & A2 & A3 & A4)]. destruct (Hl' d ltac:(lia)) as [B1 (b' & B2 & B3 & B4)].
      specialize (A1 b' B2 B3). specialize (B1 a A2 A3). lra. }
    rewrite Elo. assert (Ec : (nth d (bcast D cs) 0 == nth d [r0; r1] 0)%Q).
    { destruct d as [|[|d]]; [now symmetry|now symmetry|lia]. }
    now rewrite Ec.
  - split; [apply tagged_NoDup, blocks_NoDup|]. intros j i. eapply blocks_In; eauto.
Qed.

Definition ex16_rows : list point := [[0#1;0#1];[1#2;1#2];[5#1;5#1]].

Example C16_cpu_partial_ex_proof :
  exists g rg, grid_for CPU (1#1000) 2 ex16_rows [0;0;0]%nat 1 [1#1] g /\
    snd (find_neighbors_tf CPU g (seg 2 [[1#4;1#4];[2#1;2#1]] [0;0]%nat 1) [1#1] 0) = Ok (rg, [(1,0);(2,0)]%nat).
Proof.
  destruct (mk_grid CPU (1#1000) (seg 2 ex16_rows [0;0;0]%nat 1) [1#1]) as [g|] eqn:Eg; [|vm_compute in Eg; discriminate].
  exists g. eexists. split.
  { eapply grid_new; [|exact Eg]. apply seg_cloud; repeat constructor. }
  vm_compute in Eg. inversion Eg; subst g. clear Eg. vm_compute; reflexivity.
Qed.

(** The largest coordinate lies in the last cell. *)
Lemma last_cell D rows ids B cells g dev d :
  is_grid dev 0 D rows ids B cells g -> (d < D)%nat -> ids <> [] ->
  exists i, (i < length ids)%nat /\ nth d (gnc g) 0 - 1 <= Z.max 0 (cell_at 0 D rows ids cells i d).
Proof.
  intros G Hd Hne. pose proof (ig_cells_pos _ _ _ _ _ _ _ _ G d Hd) as Hc.
  assert (Hlen : length rows = length ids) by apply (g_len _ _ _ _ _ _ _ _ G).
  destruct (Z_le_dec (nth d (gnc g) 0) 1) as [H1|H1].
  { exists 0%nat. destruct ids; [congruence|]. split; [cbn; lia|lia]. }
  rewrite (ig_nc _ _ _ _ _ _ _ _ G) in *. unfold num_cells in *. rewrite nth_map_seq in * by exact Hd.
  rewrite (ig_min _ _ _ _ _ _ _ _ G), (ig_max _ _ _ _ _ _ _ _ G), combine_map_map, map_map in *. cbn [fst snd] in *.
  set (f := fun b => Qceiling ((coord (hi_of 0 D rows ids b) d - coord (lo_of 0 D rows ids b) d) / coord cells d)) in *.
  pose proof (fold_max_spec int32_min (map f (seq 0 B))) as (_ & _ & X).
  set (m := fold_right Z.max int32_min (map f (seq 0 B))) in *.
  destruct X as [X|X]; [unfold int32_min in X; lia|].
  apply in_map_iff in X as (b & Eb & Hb). apply in_seq in Hb.
  assert (Hm : 1 < m) by lia.
  destruct (in_dec Nat.eq_dec b ids) as [Hin|Hout].
  - destruct (hi_attained 0 D rows ids Hlen b d Hd Hin) as (i & Hi & Hbi & Hx).
    exists i. split; [exact Hi|].
    assert (Hcell : m - 1 <= cell_at 0 D rows ids cells i d).
    { unfold cell_at, lo_at, raw_cell. rewrite Hbi. apply Qfloor_ge_iff, div_ge_iff; [exact Hc|].
      apply Qnot_lt_le. intros Hlt.
      assert (Hc' : f b <= m - 1).
      { unfold f. apply Qceiling_le_iff, div_le_iff; [exact Hc|]. unfold xc, coord in *. lra. }
      lia. }
    lia.
  - exfalso. pose proof (empty_box 0 D rows ids b d Hd) as He. 
    assert (Hc' : f b <= 1).
    { unfold f. apply Qceiling_le_iff, div_le_iff; [exact Hc|].
      assert (He' := He Hout). assert (Hf : (0 <= flt_max)%Q) by (vm_compute; discriminate). change (inject_Z 1) with 1%Q. unfold coord in *. lra. }
    lia.
Qed.

(** C16. Without effective margin the CPU fallback fails for the neighborhood
    of any non-empty cloud with itself, whatever the cell size. *)
Lemma C16_cpu_refuted_proof :
  forall D rows ids B cs g cp radii max_neighbors,
    grid_for CPU 0 D rows ids B cs g -> valid_sizes D cs -> (2 <= D)%nat -> ids <> [] ->
    cloud CPU 0 D (gspts g) (gsbids g) B cp ->
    (nth 0 (all_dims D radii) 0 == nth 0 (all_dims D cs) 0)%Q ->
    (nth 1 (all_dims D radii) 0 == nth 1 (all_dims D cs) 0)%Q ->
    snd (find_neighbors_tf CPU g cp radii max_neighbors) = Err InvalidArgument.
Proof.
  intros D rows ids B cs g cp radii mx Hg Hv HD Hne Hc Hr0 Hr1.
  pose proof (grid_for_is _ _ _ _ _ _ _ _ Hv Hg) as G.
  apply cloud_is in Hc. destruct Hc as [C1 C2 C3 C4 C5 C6 C7 _].
  change (all_dims D cs) with (bcast D cs) in *. change (all_dims D radii) with (bcast D radii) in *.
  pose proof (ig_cells_pos _ _ _ _ _ _ _ _ G) as Hpos.
  assert (P0 : (0 < nth 0 (bcast D radii) 0)%Q) by (rewrite Hr0; apply Hpos; lia).
  assert (P1 : (0 < nth 1 (bcast D radii) 0)%Q) by (rewrite Hr1; apply Hpos; lia).
  destruct (nth1_pos _ P1) as (r0 & r1 & rr & Er). rewrite Er in *. cbn [nth] in *.
  eapply find_tf_cpu_err; eauto.
  destruct (last_cell D rows ids B _ g CPU 0%nat G ltac:(lia) Hne) as (i & Hi & Hcell).
  (* position of point i among the sorted points *)
  pose proof (sidx_perm _ _ _ _ _ _ _ _ G) as Hperm.
  assert (Hin : In i (gsidx g)) by (apply (Permutation_in _ (Permutation_sym Hperm)); apply in_seq; lia).
  apply (In_nth _ _ 0%nat) in Hin as (j & Hj & Ej). rewrite (sidx_length _ _ _ _ _ _ _ _ G) in Hj.
  exists j, 0%nat. rewrite (sbids_length _ _ _ _ _ _ _ _ G). split; [exact Hj|]. split; [lia|].
  rewrite (spts_nth _ _ _ _ _ _ _ _ G j Hj), (sbids_nth _ _ _ _ _ _ _ _ G j Hj), Ej.
  replace (ccell 0 D rows ids r0 r1 (nth i rows []) (nth i ids 0%nat) 0) with (cell_at 0 D rows ids (bcast D cs) i 0); [exact Hcell|].
  unfold ccell, cell_at, raw_cell, lo_at, coord. cbn [nth]. apply Qfloor_comp. now rewrite Hr0.
Qed.

Example C16_cpu_refuted_ex_proof :
  exists g, grid_for CPU 0 2 ex16_rows [0;0;0]%nat 1 [3#2] g /\
    snd (find_neighbors_tf CPU g (seg 2 (gspts g) (gsbids g) 1) [3#2] 0) = Err InvalidArgument.
Proof.
  destruct (mk_grid CPU 0 (seg 2 ex16_rows [0;0;0]%nat 1) [3#2]) as [g|] eqn:Eg; [|vm_compute in Eg; discriminate].
  exists g. split.
  { eapply grid_new; [|exact Eg]. apply seg_cloud; repeat constructor. }
  vm_compute in Eg. inversion Eg; subst g. clear Eg. vm_compute; reflexivity.
Qed.

(** C17. For any radii, everything the fallback search returns is correct with
    respect to the first radius: no pair twice, same element, closer than it. *)
Lemma C17_sound_partial_proof :
  forall dev eps D rows ids B cs g ceps crows cids CB cp radii max_neighbors rg nbs,
    grid_for dev eps D rows ids B cs g -> valid_sizes D cs ->
    cloud dev ceps D crows cids CB cp -> Forall (fun b => (b < B)%nat) cids ->
    Forall (fun r => (0 < r)%Q) (all_dims D radii) ->
    snd (find_neighbors_tf dev g cp radii max_neighbors) = Ok (rg, nbs) ->
    NoDup nbs /\
    forall j i, In (j, i) nbs -> near D (nth 0 (all_dims D radii) 0%Q) (gspts g) (gsbids g) crows cids j i.
Proof.
  intros dev eps D rows ids B cs g ceps crows cids CB cp radii mx rg nbs Hg Hv Hc HcB Hr E.
  pose proof (grid_for_is _ _ _ _ _ _ _ _ Hv Hg) as G.
  apply cloud_is in Hc. destruct Hc as [C1 C2 C3 C4 C5 C6 C7 _].
  change (all_dims D radii) with (bcast D radii) in *.
  destruct (bcast D radii) as [|r0 [|r1 rr]] eqn:Er.
  1,2: unfold find_neighbors_tf in E; rewrite (ic_dim _ _ _ _ _ _ _ (ig_cloud _ _ _ _ _ _ _ _ G)), Er in E; discriminate.
  apply Forall_cons_iff in Hr as [P0 Hr]. apply Forall_cons_iff in Hr as [P1 _].
  destruct (find_tf_sound dev eps D rows ids B _ g G crows cids cp radii mx C1 C2 C4 C5 C7 HcB r0 r1 rr Er P0 P1 rg nbs E)
    as (H1 & H2 & _). split; [exact H1|exact H2].
Qed.

Definition ex17_rows : list point := [[0#1;0#1];[5#1;5#1];[7#2;7#2]].

Example C17_sound_partial_ex_proof :
  exists g rg, grid_for GPU (1#1000) 2 ex17_rows [0;0;0]%nat 1 [2#1] g /\
    snd (find_neighbors_tf GPU g (seg 2 [[1#4;1#4];[1#2;0#1]] [0;0]%nat 1) [1#1] 0) = Ok (rg, [(2,0);(2,1)]%nat).
Proof.
  destruct (mk_grid GPU (1#1000) (seg 2 ex17_rows [0;0;0]%nat 1) [2#1]) as [g|] eqn:Eg; [|vm_compute in Eg; discriminate].
  exists g. eexists. split.
  { eapply grid_new; [|exact Eg]. apply seg_cloud; repeat constructor. }
  vm_compute in Eg. inversion Eg; subst g. clear Eg. vm_compute; reflexivity.
Qed.

(** C17. With a radius below the cell size the fallback search misses
    neighbors: the cell of a center is computed with the radii and looked up
    in an access structure built with the cell sizes. *)
Lemma C17_small_radius_refuted_proof :
  exists rows ids cs r g crows cids cp rg nbs j i,
    grid_for GPU (1#1000) 2 rows ids 1 cs g /\ valid_sizes 2 cs /\
    fits (1#1000) 2 (all_dims 2 cs) rows ids /\
    (0 < r)%Q /\ Forall (fun c => (r < c)%Q) cs /\
    cloud GPU (1#1000) 2 crows cids 1 cp /\
    snd (find_neighbors_tf GPU g cp [r] 0) = Ok (rg, nbs) /\
    near 2 r (gspts g) (gsbids g) crows cids j i /\ ~ In (j, i) nbs.
Proof.
  set (ids := [0;0;0]%nat).
  destruct (mk_grid GPU (1#1000) (seg 2 ex17_rows ids 1) [2#1]) as [g|] eqn:Eg; [|vm_compute in Eg; discriminate].
  assert (Hg : grid_for GPU (1#1000) 2 ex17_rows ids 1 [2#1] g).
  { eapply grid_new; [|exact Eg]. apply seg_cloud; repeat constructor. }
  set (cp := seg 2 [[4#1;4#1];[7#2;7#2]] [0;0]%nat 1).
  exists ex17_rows, ids, [2#1], (1#1), g, [[4#1;4#1];[7#2;7#2]], [0;0]%nat, cp.
  destruct (snd (find_neighbors_tf GPU g cp [1#1] 0)) as [[rg nbs]|] eqn:En;
    [|vm_compute in Eg; inversion Eg; subst g; vm_compute in En; discriminate].
  exists rg, nbs, 1%nat, 1%nat. split; [exact Hg|]. split; [split; [reflexivity|repeat constructor]|].
  split; [left; reflexivity|]. split; [reflexivity|]. split; [repeat constructor|].
  split; [apply seg_cloud; repeat constructor|]. split; [reflexivity|].
  vm_compute in Eg; inversion Eg; subst g; clear Eg. vm_compute in En. inversion En; subst rg nbs.
  split; [split; [cbn; lia|split; [cbn; lia|split; [reflexivity|vm_compute; reflexivity]]]|].
  intros H. repeat destruct H as [H|H]; try discriminate; try contradiction.
Qed.

(** C17. Per-axis radii: the fallback search compares distances with the
    first radius only, so a point inside the ellipsoid of the radii is
    missing. *)
Lemma C17_ellipsoid_refuted_proof :
  exists rows ids radii g crows cids cp rg nbs j i,
    grid_for GPU (1#1000) 2 rows ids 1 radii g /\ valid_sizes 2 radii /\
    fits (1#1000) 2 (all_dims 2 radii) rows ids /\
    cloud GPU (1#1000) 2 crows cids 1 cp /\
    snd (find_neighbors_tf GPU g cp radii 0) = Ok (rg, nbs) /\
    inside_ellipsoid 2 radii (gspts g) (gsbids g) crows cids j i /\ ~ In (j, i) nbs.
Proof.
  set (ids := [0;0;0]%nat). set (rows := [[0#1;0#1];[0#1;3#2];[3#1;3#1]] : list point).
  destruct (mk_grid GPU (1#1000) (seg 2 rows ids 1) [1#1;2#1]) as [g|] eqn:Eg; [|vm_compute in Eg; discriminate].
  assert (Hg : grid_for GPU (1#1000) 2 rows ids 1 [1#1;2#1] g).
  { eapply grid_new; [|exact Eg]. apply seg_cloud; repeat constructor. }
  set (cp := seg 2 [[0#1;0#1];[0#1;0#1]] [0;0]%nat 1).
  exists rows, ids, [1#1;2#1], g, [[0#1;0#1];[0#1;0#1]], [0;0]%nat, cp.
  destruct (snd (find_neighbors_tf GPU g cp [1#1;2#1] 0)) as [[rg nbs]|] eqn:En;
    [|vm_compute in Eg; inversion Eg; subst g; vm_compute in En; discriminate].
  exists rg, nbs, 2%nat, 0%nat. split; [exact Hg|]. split; [split; [reflexivity|repeat constructor]|].
  split; [left; reflexivity|].
  split; [apply seg_cloud; repeat constructor|]. split; [reflexivity|].
  vm_compute in Eg; inversion Eg; subst g; clear Eg. vm_compute in En. inversion En; subst rg nbs.
  split; [split; [cbn; lia|split; [cbn; lia|split; [reflexivity|vm_compute; reflexivity]]]|].
  intros H. repeat destruct H as [H|H]; try discriminate; try contradiction.
Qed.

(** C18. The brute force search returns each pair of points of the same
    element at distance at most the radius exactly once, and nothing else. *)
Lemma C18_brute_force_proof :
  forall dev eps D rows ids B p ceps crows cids CB cp radius,
    cloud dev eps D rows ids B p -> cloud dev ceps D crows cids CB cp -> (0 <= radius)%Q ->
    exists rg nbs, find_neighbors_no_grid dev p cp radius = Ok (rg, nbs) /\
      NoDup nbs /\ forall j i, In (j, i) nbs <-> within D radius rows ids crows cids j i.
Proof.
  intros dev eps D rows ids B p ceps crows cids CB cp r Hp Hc Hr.
  apply cloud_is in Hp. destruct Hp as [P1 P2 P3 P4 P5 P6 P7 _].
  apply cloud_is in Hc. destruct Hc as [C1 C2 C3 C4 C5 C6 C7 _].
  rewrite (brute_ok rows crows ids cids D p cp r dev) by assumption.
  eexists. eexists. split; [reflexivity|]. split; [apply bblocks_NoDup|].
  intros j i. now apply bblocks_In.
Qed.

Example C18_brute_force_ex_proof :
  exists rg, find_neighbors_no_grid CPU (seg 2 exN_rows exN_ids 2) (seg 2 exN_centers exN_cids 2) (1#1) =
    Ok (rg, [(0,0);(1,1);(2,2);(4,4)]%nat).
Proof. eexists. vm_compute; reflexivity. Qed.

(** C18. The grid search agrees with the brute force search, apart from pairs
    whose distance is exactly the radius (same conditions as C14). *)
Lemma C18_agreement_partial_proof :
  forall eps D rows ids B cs g p ceps crows cids CB cp radii max_neighbors r,
    grid_for GPU eps D rows ids B cs g -> valid_sizes D cs -> (2 <= D)%nat ->
    (0 <= eps)%Q -> fits eps D (all_dims D cs) rows ids ->
    Z.of_nat (length ids) < 2 ^ 31 - 1 -> Z.of_nat B * product (gnc g) <= 2 ^ 31 ->
    cloud GPU ceps D crows cids CB cp -> cids <> [] -> Forall (fun b => (b < B)%nat) cids ->
    cloud GPU eps D rows ids B p ->
    all_dims D radii = repeat r D -> all_dims D cs = repeat r D ->
    exists rg nbs rg' nbs',
      snd (find_neighbors_tf GPU g cp radii max_neighbors) = Ok (rg, nbs) /\
      find_neighbors_no_grid GPU p cp r = Ok (rg', nbs') /\
      forall j i, (j < length ids)%nat -> (i < length cids)%nat ->
        ~ (dist2 D (nth j (gspts g) []) (nth i crows []) == r * r)%Q ->
        (In (j, i) nbs <-> In (nth j (gsidx g) 0%nat, i) nbs').
Proof.
  intros eps D rows ids B cs g p ceps crows cids CB cp radii mx r Hg Hv HD He Hf HN Ho Hc Hne HcB Hp Hr Hcs.
  assert (E0 : nth 0 (repeat r D) 0%Q = r) by (destruct D as [|[|D]]; [lia|lia|reflexivity]).
  assert (E1 : nth 1 (repeat r D) 0%Q = r) by (destruct D as [|[|D]]; [lia|lia|reflexivity]).
  destruct (C14_neighbors_partial_proof eps D rows ids B cs g ceps crows cids CB cp radii mx Hg Hv HD He Hf HN Ho Hc Hne HcB)
    as (rg & nbs & A1 & _ & A2); [rewrite Hr, Hcs; reflexivity..|rewrite Hr, E0, E1; apply Qle_refl|].
  assert (Hr0 : (0 <= r)%Q).
  { destruct Hv as [Hl Hv]. rewrite Hcs in Hv. rewrite Forall_forall in Hv. apply Qlt_le_weak, Hv.
    destruct D; [lia|left; reflexivity]. }
  destruct (C18_brute_force_proof GPU eps D rows ids B p ceps crows cids CB cp r Hp Hc Hr0) as (rg' & nbs' & B1 & _ & B2).
  exists rg, nbs, rg', nbs'. split; [exact A1|]. split; [exact B1|].
  intros j i Hj Hi Hd. rewrite A2, B2. rewrite Hr, E0. unfold near, within.
  pose proof (grid_for_is _ _ _ _ _ _ _ _ Hv Hg) as G.
  rewrite (sbids_length _ _ _ _ _ _ _ _ G).
  rewrite (spts_nth _ _ _ _ _ _ _ _ G j Hj) in *. rewrite (sbids_nth _ _ _ _ _ _ _ _ G j Hj).
  pose proof (sidx_lt _ _ _ _ _ _ _ _ G j Hj) as Hlt.
  split; intros (X1 & X2 & X3 & X4); repeat split; auto; try lra.
Qed.

Example C18_agreement_partial_ex_proof :
  exists g rg nbs rg' nbs',
    grid_for GPU (1#1000) 2 exN_rows exN_ids 2 [1#1] g /\
    snd (find_neighbors_tf GPU g (seg 2 exN_centers exN_cids 2) [1#1] 0) = Ok (rg, nbs) /\
    find_neighbors_no_grid GPU (seg 2 exN_rows exN_ids 2) (seg 2 exN_centers exN_cids 2) (1#1) = Ok (rg', nbs') /\
    map (fun q => (nth (fst q) (gsidx g) 0, snd q))%nat nbs = [(0,0);(1,1);(4,4)]%nat /\
    nbs' = [(0,0);(1,1);(2,2);(4,4)]%nat.
Proof.
  destruct C14_neighbors_partial_ex_proof as (g & rg & nbs & Hg & _ & Hs & E & E1 & E2).
  destruct C18_brute_force_ex_proof as (rg' & E').
  exists g, rg, nbs, rg'. eexists. split; [exact Hg|]. split; [exact E|]. split; [exact E'|].
  split; [|reflexivity]. rewrite Hs, E1. reflexivity.
Qed.
