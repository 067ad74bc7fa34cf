(** Proofs about the fallback search on CPU (C16). The statements are copied into
    PropertiesCpuSearch.v. *)
From Coq Require Import List Arith ZArith QArith Qround Lia Lqa Bool Permutation Sorted.
From Verif Require Import Tensor TensorFacts Spec PointCloud SpecCloud History PointCloudFacts QFacts
  CloudProofs Grid SpecGrid GridFacts GridProofs Neighbors SpecNeighbors NeighborFacts NeighborProofs.
Import ListNotations.
Local Open Scope Z_scope.

(** C16. On CPU the search returns a result exactly if no center lies in the last
    cell, or beyond, of the first two dimensions; otherwise it raises
    InvalidArgumentError. *)
Lemma C16_cpu_exactly_proof :
  forall eps D rows ids B cs g ceps crows cids CB cp radii max_neighbors lo,
    grid_for CPU eps D rows ids B cs g -> valid_sizes D cs -> (2 <= D)%nat ->
    (0 <= eps)%Q -> fits eps D (all_dims D cs) rows ids ->
    Z.of_nat (length ids) < 2 ^ 31 - 1 -> Z.of_nat B * product (gnc g) <= 2 ^ 31 ->
    cloud CPU ceps D crows cids CB cp -> cids <> [] -> Forall (fun b => (b < B)%nat) cids ->
    (nth 0 (all_dims D radii) 0 == nth 0 (all_dims D cs) 0)%Q ->
    (nth 1 (all_dims D radii) 0 == nth 1 (all_dims D cs) 0)%Q ->
    (nth 0 (all_dims D radii) 0 <= nth 1 (all_dims D radii) 0)%Q ->
    (forall b, In b cids -> In b ids /\ lower_corner D eps rows ids b (lo b)) ->
    let in_last i d := nth d (gnc g) 0 - 1 <= Z.max 0 (cell (lo (nth i cids 0%nat)) (all_dims D cs) (nth i crows []) d) in
    ((exists out, snd (find_neighbors_tf CPU g cp radii max_neighbors) = Ok out) <->
       forall i d, (i < length cids)%nat -> (d < 2)%nat -> ~ in_last i d) /\
    (forall e, snd (find_neighbors_tf CPU g cp radii max_neighbors) = Err e ->
       e = InvalidArgument /\ exists i d, (i < length cids)%nat /\ (d < 2)%nat /\ in_last i d).
Proof.
  intros eps D rows ids B cs g ceps crows cids CB cp radii mx lo Hg Hv HD He Hf HN Ho Hc Hne HcB Hr0 Hr1 Hr Hlo in_last.
  assert (Hbad : forall i d, (i < length cids)%nat -> (d < 2)%nat -> in_last i d -> snd (find_neighbors_tf CPU g cp radii mx) = Err InvalidArgument).
  { intros i d Hi Hd Hl.
    pose proof (grid_for_is _ _ _ _ _ _ _ _ Hv Hg) as G.
    apply cloud_is in Hc. destruct Hc as [C1 C2 C3 C4 C5 C6 C7 _].
    unfold in_last in Hl. change (all_dims D cs) with (bcast D cs) in *. change (all_dims D radii) with (bcast D radii) in *.
    pose proof (ig_cells_pos _ _ _ _ _ _ _ _ G) as Hpos.
    assert (P0 : (0 < nth 0 (bcast D radii) 0)%Q) by (rewrite Hr0; apply Hpos; lia).
    assert (P1 : (0 < nth 1 (bcast D radii) 0)%Q) by (rewrite Hr1; apply Hpos; lia).
    destruct (nth1_pos _ P1) as (r0 & r1 & rr & Er). rewrite Er in *. cbn [nth] in *.
    eapply find_tf_cpu_err; eauto. exists i, d. split; [exact Hi|]. split; [exact Hd|].
    destruct (Hlo (nth i cids 0%nat) ltac:(now apply nth_In)) as [Hb Hl0].
    pose proof (lo_corner eps D rows ids (g_len _ _ _ _ _ _ _ _ G) _ Hb) as Hl'.
    replace (ccell eps D rows ids r0 r1 (nth i crows []) (nth i cids 0%nat) d)
      with (cell (lo (nth i cids 0%nat)) (bcast D cs) (nth i crows []) d); [exact Hl|].
    unfold ccell, raw_cell, cell, coord. apply Qfloor_comp.
    assert (Elo : (nth d (lo (nth i cids 0%nat)) 0 == nth d (lo_of eps D rows ids (nth i cids 0%nat)) 0)%Q).
    { destruct (Hl0 d ltac:(lia)) as [A1 (a & A2 & A3 & A4)]. destruct (Hl' d ltac:(lia)) as [B1 (b' & B2 & B3 & B4)].
      specialize (A1 b' B2 B3). specialize (B1 a A2 A3). lra. }
    rewrite Elo. assert (Ec : (nth d (bcast D cs) 0 == nth d [r0; r1] 0)%Q).
    { destruct d as [|[|d]]; [now symmetry|now symmetry|lia]. }
    now rewrite Ec. }
  assert (Hgood : (forall i d, (i < length cids)%nat -> (d < 2)%nat -> ~ in_last i d) -> exists out, snd (find_neighbors_tf CPU g cp radii mx) = Ok out).
  { intros H. destruct (C16_cpu_partial_proof eps D rows ids B cs g ceps crows cids CB cp radii mx lo) as (rg & nbs & E & _); auto.
    - intros i d Hi Hd. specialize (H i d Hi Hd). unfold in_last in H. lia.
    - exists (rg, nbs). exact E. }
  assert (Hdec : forall n, (n <= length cids)%nat -> (exists i d, (i < n)%nat /\ (d < 2)%nat /\ in_last i d) \/ forall i d, (i < n)%nat -> (d < 2)%nat -> ~ in_last i d).
  { induction n as [|n IH]; intros Hn; [right; intros; lia|]. destruct (IH ltac:(lia)) as [(i & d & Hi & Hd & Hl)|IH']; [left; exists i, d; repeat split; [lia|exact Hd|exact Hl]|].
    destruct (Z_le_dec (nth 0 (gnc g) 0 - 1) (Z.max 0 (cell (lo (nth n cids 0%nat)) (all_dims D cs) (nth n crows []) 0))) as [H0|H0];
      [left; exists n, 0%nat; repeat split; [lia..|exact H0]|].
    destruct (Z_le_dec (nth 1 (gnc g) 0 - 1) (Z.max 0 (cell (lo (nth n cids 0%nat)) (all_dims D cs) (nth n crows []) 1))) as [H1|H1];
      [left; exists n, 1%nat; repeat split; [lia..|exact H1]|].
    right. intros i d Hi Hd. destruct (Nat.eq_dec i n) as [->|]; [|apply IH'; lia].
    destruct d as [|[|d]]; [exact H0|exact H1|lia]. }
  split; [split|].
  - intros (out & E) i d Hi Hd Hl. rewrite (Hbad i d Hi Hd Hl) in E. discriminate.
  - exact Hgood.
  - intros e E. destruct (Hdec (length cids) (le_n _)) as [(i & d & Hi & Hd & Hl)|H].
    + rewrite (Hbad i d Hi Hd Hl) in E. split; [congruence|]. exists i, d. auto.
    + destruct (Hgood H) as (out & E'). congruence.
Qed.

(** A search that succeeds (C16_cpu_partial_ex) and one with a center in the last
    cell. *)
Example C16_cpu_exactly_ex_proof :
  exists g rg, grid_for CPU (1#1000) 2 ex16_rows [0;0;0]%nat 1 [1#1] g /\ gnc g = [6; 6] /\
    snd (find_neighbors_tf CPU g (seg 2 [[1#4;1#4];[2#1;2#1]] [0;0]%nat 1) [1#1] 0) = Ok (rg, [(1,0);(2,0)]%nat) /\
    snd (find_neighbors_tf CPU g (seg 2 [[1#4;1#4];[5#1;2#1]] [0;0]%nat 1) [1#1] 0) = Err InvalidArgument.
Proof.
  destruct (mk_grid CPU (1#1000) (seg 2 ex16_rows [0;0;0]%nat 1) [1#1]) as [g|] eqn:Eg; [|vm_compute in Eg; discriminate].
  exists g. eexists. split.
  { eapply grid_new; [|exact Eg]. apply seg_cloud; repeat constructor. }
  vm_compute in Eg. inversion Eg; subst g. clear Eg. split; [vm_compute; reflexivity|]. split; [vm_compute; reflexivity|]. vm_compute; reflexivity.
Qed.
