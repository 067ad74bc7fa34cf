(** Proofs of the grid properties (C11-C13). The statements are copied
    verbatim into PropertiesGrid.v. *)
From Coq Require Import List Arith ZArith QArith Qround Lia Lqa Bool Permutation Sorted.
From Verif Require Import Tensor TensorFacts Spec PointCloud SpecCloud History PointCloudFacts QFacts
  CloudProofs Grid SpecGrid GridFacts.
Import ListNotations.
Local Open Scope Z_scope.

Lemma zprod_product l : zprod l = product l.
Proof. reflexivity. Qed.

(** C11. The grid of any cloud has the smallest sufficient number of cells per
    dimension, every point lies in one of these cells, and, as long as the
    number of cells over the whole batch fits into 32 bit, the key of a point
    is the row-major number of its batch element and cell: keys are in
    [[0, batch_size * number of cells)] and are equal exactly for points of
    the same element in the same cell. [fits] excludes the boundary case
    refuted below. *)
Lemma C11_grid_keys_partial_proof :
  forall dev eps D rows ids B cs p,
    cloud dev eps D rows ids B p -> valid_sizes D cs ->
    (0 <= eps)%Q -> (eps <= flt_max)%Q -> fits eps D (all_dims D cs) rows ids ->
    exists g lo, mk_grid dev eps p cs = Ok g /\
      length (gnc g) = D /\ length (gkeys g) = length ids /\
      (forall d, (d < D)%nat -> cells_needed eps (all_dims D cs) rows ids d (nth d (gnc g) 0)) /\
      (forall b, In b ids -> lower_corner D eps rows ids b (lo b)) /\
      let c i d := cell (lo (nth i ids 0%nat)) (all_dims D cs) (nth i rows []) d in
      (forall i d, (i < length ids)%nat -> (d < D)%nat -> 0 <= c i d < nth d (gnc g) 0) /\
      (Z.of_nat B * product (gnc g) <= 2 ^ 31 ->
       forall i, (i < length ids)%nat ->
         nth i (gkeys g) 0 = Z.of_nat (nth i ids 0%nat) * product (gnc g)
            + total (map (fun d => c i d * product (skipn (S d) (gnc g))) (seq 0 D)) /\
         0 <= nth i (gkeys g) 0 < Z.of_nat B * product (gnc g) /\
         forall j, (j < length ids)%nat ->
           (nth i (gkeys g) 0 = nth j (gkeys g) 0 <->
            nth i ids 0%nat = nth j ids 0%nat /\ forall d, (d < D)%nat -> c i d = c j d)).
Proof.
  intros dev eps D rows ids B cs p Hc Hv H0 Hm Hf.
  apply cloud_is in Hc.
  destruct (mk_grid_ok dev eps D rows ids B p cs Hc Hv) as (g & E & G & _).
  change (all_dims D cs) with (bcast D cs) in *.
  exists g, (lo_of eps D rows ids). split; [exact E|].
  split; [eapply nc_length; exact G|]. split; [eapply keys_length; exact G|].
  split.
  { intros d Hd. rewrite (ig_nc _ _ _ _ _ _ _ _ G).
    eapply num_cells_needed; eauto; first [ apply (g_len _ _ _ _ _ _ _ _ G)
      | apply (g_idsB _ _ _ _ _ _ _ _ G) | exact (ig_min _ _ _ _ _ _ _ _ G)
      | exact (ig_max _ _ _ _ _ _ _ _ G) | exact (ig_cells_pos _ _ _ _ _ _ _ _ G)]. }
  split.
  { intros b Hb. apply lo_corner; [apply (g_len _ _ _ _ _ _ _ _ G)|exact Hb]. }
  cbv zeta. split.
  { intros i d Hi Hd. exact (cell_at_range _ _ _ _ _ _ _ _ H0 G Hf i d Hi Hd). }
  intros Ho i Hi. split; [|split].
  - rewrite (key_value _ _ _ _ _ _ _ _ H0 G Hf Ho i Hi). f_equal.
    rewrite <- radix_sum by (rewrite map_length, seq_length; symmetry; eapply nc_length; exact G).
    rewrite (nc_length _ _ _ _ _ _ _ _ G). unfold zsum, total. f_equal. apply map_ext_in.
    intros d Hd. apply in_seq in Hd. rewrite nth_map_seq by lia. reflexivity.
  - exact (key_range _ _ _ _ _ _ _ _ H0 G Hf Ho i Hi).
  - intros j Hj. exact (key_inj _ _ _ _ _ _ _ _ H0 G Hf Ho i j Hi Hj).
Qed.

Definition ex_pts : list point := [[0#1;0#1;0#1];[1#2;5#2;0#1];[3#1;1#1;2#1];[1#4;5#2;1#10];[7#1;7#1;7#1]].
Definition ex_bids : list nat := [0;0;0;0;1]%nat.

Example C11_grid_keys_partial_ex_proof :
  exists p g, init (P2 3 ex_pts) (Some ex_bids) None None = Ok p /\ mk_grid CPU 0 p [4#3] = Ok g /\
    ~ boundary_case 3 (all_dims 3 [4#3]) ex_pts ex_bids /\ gnc g = [3;2;2] /\
    gkeys g = [0; 2; 9; 2; 12].
Proof.
  eexists. eexists. split; [reflexivity|]. split; [vm_compute; reflexivity|].
  split; [|split; vm_compute; reflexivity].
  intros (i & j & d & k & Hi & Hj & Hij & Hd & Hk & Hx & _).
  assert (Hid : (d = 0 \/ d = 1 \/ d = 2)%nat) by lia.
  change (length ex_bids) with 5%nat in *.
  do 5 (destruct i as [|i]; [do 5 (destruct j as [|j]; [
    first [discriminate Hij |
     destruct Hid as [-> | [-> | ->]]; revert Hx; unfold Qeq; cbn; lia]|]); lia|]); lia.
Qed.

(** C11, boundary. With a margin that rounds to zero and an extent that is a
    multiple of the cell size, two points in different cells get the same
    key. *)
Lemma C11_boundary_refuted_proof :
  exists (p : pc) (g : grid) (rows : list point) (ids : list nat) (cs : list Q) (lo : list Q),
    cloud CPU 0 2 rows ids 1 p /\ valid_sizes 2 cs /\ mk_grid CPU 0 p cs = Ok g /\
    lower_corner 2 0 rows ids 0 lo /\
    exists i j, (i < length ids)%nat /\ (j < length ids)%nat /\
      nth i ids 0%nat = nth j ids 0%nat /\
      cell lo (all_dims 2 cs) (nth i rows []) 0 <> cell lo (all_dims 2 cs) (nth j rows []) 0 /\
      nth i (gkeys g) 0 = nth j (gkeys g) 0.
Proof.
  set (rows := [[0#1;2#1];[1#1;0#1];[3#2;1#1]] : list point).
  destruct (init (P2 2 rows) (Some [0;0;0]%nat) None None) as [p|] eqn:E; [|discriminate].
  assert (Hc : cloud CPU 0 2 rows [0;0;0]%nat 1 p).
  { eapply cloud_new; [exact E|..]; try (vm_compute in E; inversion E; subst; reflexivity); try reflexivity;
    repeat constructor. }
  assert (Hv : valid_sizes 2 [1#1]) by (split; [reflexivity|repeat constructor]).
  destruct (mk_grid CPU 0 p [1#1]) as [g|] eqn:Eg;
    [|vm_compute in E; inversion E; subst p; vm_compute in Eg; discriminate].
  exists p, g, rows, [0;0;0]%nat, [1#1], [0#1;0#1].
  split; [exact Hc|]. split; [exact Hv|]. split; [exact Eg|].
  split.
  { intros d Hd. assert (d = 0%nat \/ d = 1%nat) as [->| ->] by lia; split;
      try (intros i Hi _; do 3 (destruct i as [|i]; [vm_compute; discriminate|]); cbn in Hi; lia).
    - exists 0%nat. repeat split; cbn; lia.
    - exists 1%nat. repeat split; cbn; lia. }
  exists 0%nat, 1%nat. do 3 (split; [cbn; lia|]). split; [vm_compute; discriminate|].
  vm_compute in E; inversion E; subst p; vm_compute in Eg; inversion Eg; subst g. reflexivity.
Qed.

(** C11, overflow. If the number of cells over the batch exceeds the 32 bit
    range, points of different batch elements get the same key, whatever the
    margin. *)
Lemma C11_overflow_refuted_proof :
  exists (p : pc) (g : grid) (rows : list point) (ids : list nat) (cs : list Q) (eps : Q),
    (0 < eps)%Q /\ cloud CPU eps 2 rows ids 2 p /\ valid_sizes 2 cs /\ mk_grid CPU eps p cs = Ok g /\
    exists i j, (i < length ids)%nat /\ (j < length ids)%nat /\
      nth i ids 0%nat <> nth j ids 0%nat /\ nth i (gkeys g) 0 = nth j (gkeys g) 0.
Proof.
  set (rows := [[0#1;0#1];[65535#1;65535#1];[0#1;0#1]] : list point).
  destruct (init (P2 2 rows) (Some [0;0;1]%nat) None None) as [p|] eqn:E; [|discriminate].
  assert (Hc : cloud CPU (1#4) 2 rows [0;0;1]%nat 2 p).
  { eapply cloud_new; [exact E|..]; try (vm_compute in E; inversion E; subst; reflexivity); try reflexivity;
    repeat constructor. }
  destruct (mk_grid CPU (1#4) p [1#1]) as [g|] eqn:Eg;
    [|vm_compute in E; inversion E; subst p; vm_compute in Eg; discriminate].
  exists p, g, rows, [0;0;1]%nat, [1#1], (1#4).
  split; [reflexivity|]. split; [exact Hc|]. split; [split; [reflexivity|repeat constructor]|].
  split; [exact Eg|].
  exists 0%nat, 2%nat. do 2 (split; [cbn; lia|]). split; [cbn; lia|].
  vm_compute in E; inversion E; subst p; vm_compute in Eg; inversion Eg; subst g. reflexivity.
Qed.

(** C12. Sorted points, batch ids and keys are the original ones under one
    permutation; sorted keys descend, equal keys keep the original order. *)
Lemma C12_sorting_proof :
  forall dev eps D rows ids B cs p,
    cloud dev eps D rows ids B p -> valid_sizes D cs ->
    exists g, mk_grid dev eps p cs = Ok g /\
      Permutation (gsidx g) (seq 0 (length ids)) /\
      length (gspts g) = length ids /\ length (gsbids g) = length ids /\ length (gskeys g) = length ids /\
      (forall j, (j < length ids)%nat ->
         nth j (gspts g) [] = nth (nth j (gsidx g) 0%nat) rows [] /\
         nth j (gsbids g) 0%nat = nth (nth j (gsidx g) 0%nat) ids 0%nat /\
         nth j (gskeys g) 0 = nth (nth j (gsidx g) 0%nat) (gkeys g) 0) /\
      (forall j k, (j < k)%nat -> (k < length ids)%nat ->
         nth k (gskeys g) 0 <= nth j (gskeys g) 0 /\
         (nth k (gskeys g) 0 = nth j (gskeys g) 0 -> (nth j (gsidx g) 0 < nth k (gsidx g) 0)%nat)).
Proof.
  intros dev eps D rows ids B cs p Hc Hv. apply cloud_is in Hc.
  destruct (mk_grid_ok dev eps D rows ids B p cs Hc Hv) as (g & E & G & _).
  exists g. split; [exact E|]. split; [eapply sidx_perm; exact G|].
  split; [eapply spts_length; exact G|]. split; [eapply sbids_length; exact G|].
  split; [eapply skeys_length; exact G|]. split.
  - intros j Hj. split; [|split].
    + eapply spts_nth; [exact G|exact Hj].
    + eapply sbids_nth; [exact G|exact Hj].
    + eapply skeys_nth; [exact G|exact Hj].
  - intros j k Hjk Hk. exact (sidx_sorted _ _ _ _ _ _ _ _ G j k Hjk Hk).
Qed.

Example C12_sorting_ex_proof :
  exists p g, init (P2 3 ex_pts) (Some ex_bids) None None = Ok p /\ mk_grid CPU 0 p [4#3] = Ok g /\
    gsidx g = [4;2;1;3;0]%nat /\ gskeys g = [12;9;2;2;0].
Proof. eexists. eexists. split; [reflexivity|]. split; [vm_compute; reflexivity|]. split; vm_compute; reflexivity. Qed.

(** ** The access structure *)

Lemma first_two (nc : list Z) D : length nc = D -> (2 <= D)%nat ->
  exists n0 n1 rest, nc = n0 :: n1 :: rest.
Proof. destruct nc as [|a [|b r]]; cbn; intros; try lia. eauto. Qed.

Lemma map_seq_two {A} (f : nat -> A) D : (2 <= D)%nat ->
  map f (seq 0 D) = f 0%nat :: f 1%nat :: map (fun d => f (S (S d))) (seq 0 (D - 2)).
Proof.
  intros H. destruct D as [|[|D]]; try lia. cbn [seq map]. do 2 f_equal.
  rewrite Nat.sub_succ, Nat.sub_succ, Nat.sub_0_r. rewrite <- !seq_shift, !map_map. reflexivity.
Qed.

Lemma in_cells_tl2 a b nc x y cs : in_cells (a :: b :: nc) (x :: y :: cs) -> in_cells nc cs.
Proof. intros H. inversion H as [|? ? ? ? _ H']; subst. inversion H'; subst. assumption. Qed.

Section DS.
  Context (dev : device) (eps : Q) (D : nat) (rows : list point) (ids : list nat) (B : nat)
          (cells : point) (g : grid).
  Hypothesis Heps : (0 <= eps)%Q.
  Hypothesis G : is_grid dev eps D rows ids B cells g.
  Hypothesis Hfit : fits eps D cells rows ids.
  Hypothesis HD : (2 <= D)%nat.
  Hypothesis Hover : Z.of_nat B * zprod (gnc g) <= 2 ^ 31.
  Hypothesis HN : Z.of_nat (length ids) < int32_max.

  (** The cell of sorted point [j] in dimension [d]. *)
  Definition scell (j d : nat) : Z := cell_at eps D rows ids cells (nth j (gsidx g) 0%nat) d.

  Lemma grid_ds_ok :
    exists d, build_grid_ds dev (gskeys g) (gnc g) B = Ok d /\ dsB d = B /\
      ds0 d = nth 0 (gnc g) 0 /\ ds1 d = nth 1 (gnc g) 0 /\
      forall b x y, (b < B)%nat -> 0 <= x < nth 0 (gnc g) 0 -> 0 <= y < nth 1 (gnc g) 0 ->
        exists s e, ds_lookup d b x y = Some (s, e) /\ 0 <= s <= e /\ e <= Z.of_nat (length ids) /\
          forall j, (j < length ids)%nat ->
            (s <= Z.of_nat j < e <->
             nth j (gsbids g) 0%nat = b /\ scell j 0 = x /\ scell j 1 = y).
  Proof.
    pose proof (nc_length _ _ _ _ _ _ _ _ G) as Hl.
    destruct (first_two _ D Hl HD) as (n0 & n1 & rest & Enc).
    pose proof (nc_pos _ _ _ _ _ _ _ _ G 0%nat ltac:(lia)) as P0.
    pose proof (nc_pos _ _ _ _ _ _ _ _ G 1%nat ltac:(lia)) as P1.
    pose proof (nc_pos_all _ _ _ _ _ _ _ _ G) as PA.
    rewrite Enc in P0, P1, PA. cbn [nth] in P0, P1.
    assert (PR : 1 <= zprod rest) by (apply zprod_pos; intros x Hx; apply PA; cbn; auto).
    pose proof (skeys_length _ _ _ _ _ _ _ _ G) as Ls.
    assert (Hr : forall j, (j < length ids)%nat -> 0 <= nth j (gskeys g) 0 < Z.of_nat B * zprod (gnc g)).
    { intros j Hj. rewrite (skeys_nth _ _ _ _ _ _ _ _ G j Hj).
      apply (key_range _ _ _ _ _ _ _ _ Heps G Hfit Hover).
      exact (sidx_lt _ _ _ _ _ _ _ _ G j Hj). }
    assert (Hdiv : forall j, (j < length ids)%nat ->
      nth j (gskeys g) 0 / zprod rest = (Z.of_nat (nth j (gsbids g) 0%nat) * n0 + scell j 0) * n1 + scell j 1).
    { intros j Hj. rewrite (skeys_nth _ _ _ _ _ _ _ _ G j Hj), (sbids_nth _ _ _ _ _ _ _ _ G j Hj).
      pose proof (sidx_lt _ _ _ _ _ _ _ _ G j Hj) as Hj'.
      rewrite (key_value _ _ _ _ _ _ _ _ Heps G Hfit Hover _ Hj').
      pose proof (cells_in _ _ _ _ _ _ _ _ Heps G Hfit _ Hj') as HC.
      rewrite map_seq_two in HC |- * by exact HD. rewrite Enc in HC |- *.
      apply in_cells_tl2 in HC. apply radix_range in HC.
      cbn [radix zprod fold_right]. fold (zprod rest).
      set (r := radix rest _) in *. fold (scell j 0) (scell j 1).
      replace (Z.of_nat (nth (nth j (gsidx g) 0%nat) ids 0%nat) * (n0 * (n1 * zprod rest)) +
        (scell j 0 * (n1 * zprod rest) + (scell j 1 * zprod rest + r)))
      with (((Z.of_nat (nth (nth j (gsidx g) 0%nat) ids 0%nat) * n0 + scell j 0) * n1 + scell j 1) * zprod rest + r) by ring.
      rewrite Z.div_add_l by lia. rewrite Z.div_small by lia. lia. }
    rewrite Enc in Hover, Hr |- *. cbn [zprod fold_right nth] in Hover, Hr |- *. fold (zprod rest) in Hover, Hr.
    destruct (build_grid_ds_spec dev (gskeys g) n0 n1 rest B P0 P1 PR Hover)
      as (d & E & E1 & E2 & E3 & Hd).
    - rewrite Ls. exact HN.
    - rewrite Ls. exact Hr.
    - rewrite Ls. intros j k Hjk Hk. exact (proj1 (sidx_sorted _ _ _ _ _ _ _ _ G j k Hjk Hk)).
    - exists d. split; [exact E|]. split; [exact E1|]. split; [exact E2|]. split; [exact E3|].
      intros b x y Hb Hx Hy. destruct (Hd b x y Hb Hx Hy) as (s & e & El & Hs & He & Hj).
      exists s, e. rewrite Ls in *. split; [exact El|]. split; [exact Hs|]. split; [exact He|].
      intros j Hjn. rewrite (Hj j Hjn), (Hdiv j Hjn).
      pose proof (cell_at_range _ _ _ _ _ _ _ _ Heps G Hfit _ 0%nat (sidx_lt _ _ _ _ _ _ _ _ G j Hjn) ltac:(lia)) as R0.
      pose proof (cell_at_range _ _ _ _ _ _ _ _ Heps G Hfit _ 1%nat (sidx_lt _ _ _ _ _ _ _ _ G j Hjn) ltac:(lia)) as R1.
      fold (scell j 0) in R0. fold (scell j 1) in R1. rewrite Enc in R0, R1. cbn [nth] in R0, R1.
      split.
      + intros Eq.
        assert (Q1 : Z.of_nat (nth j (gsbids g) 0%nat) * n0 + scell j 0 = Z.of_nat b * n0 + x) by nia.
        assert (Q2 : Z.of_nat (nth j (gsbids g) 0%nat) = Z.of_nat b) by nia.
        apply Nat2Z.inj in Q2. rewrite Q2 in *. split; [reflexivity|]. split; nia.
      + intros (-> & -> & ->). reflexivity.
  Qed.
End DS.

(** C13. In at least two dimensions, the access structure of the grid of any
    cloud (below 2^31 points and cells) gives for every batch element and
    every pair of first cell coordinates the range of exactly the sorted points
    of that element with these cell coordinates. Repeated calls return the
    same structure. *)
Lemma C13_access_partial_proof :
  forall dev eps D rows ids B cs p,
    cloud dev eps D rows ids B p -> valid_sizes D cs -> (2 <= D)%nat ->
    (0 <= eps)%Q -> fits eps D (all_dims D cs) rows ids ->
    Z.of_nat (length ids) < 2 ^ 31 - 1 ->
    exists g lo, mk_grid dev eps p cs = Ok g /\
      (forall b, In b ids -> lower_corner D eps rows ids b (lo b)) /\
      (Z.of_nat B * product (gnc g) <= 2 ^ 31 ->
       exists ds, snd (get_DS dev g) = Ok ds /\ snd (get_DS dev (fst (get_DS dev g))) = Ok ds /\
         forall b x y, 
           (((b < B)%nat /\ 0 <= x < nth 0 (gnc g) 0 /\ 0 <= y < nth 1 (gnc g) 0) ->
            exists s e, ds_lookup ds b x y = Some (s, e) /\ 0 <= s <= e /\ e <= Z.of_nat (length ids) /\
            forall j, (j < length ids)%nat ->
              (s <= Z.of_nat j < e <->
               nth j (gsbids g) 0%nat = b /\
               cell (lo b) (all_dims D cs) (nth j (gspts g) []) 0 = x /\
               cell (lo b) (all_dims D cs) (nth j (gspts g) []) 1 = y)) /\
           (~ ((b < B)%nat /\ 0 <= x < nth 0 (gnc g) 0 /\ 0 <= y < nth 1 (gnc g) 0) ->
            ds_lookup ds b x y = None)).
Proof.
  intros dev eps D rows ids B cs p Hc Hv HD H0 Hf HN. apply cloud_is in Hc.
  destruct (mk_grid_ok dev eps D rows ids B p cs Hc Hv) as (g & E & G & En).
  change (all_dims D cs) with (bcast D cs) in *.
  exists g, (lo_of eps D rows ids). split; [exact E|].
  split. { intros b Hb. apply lo_corner; [apply (g_len _ _ _ _ _ _ _ _ G)|exact Hb]. }
  intros Ho.
  destruct (grid_ds_ok dev eps D rows ids B (bcast D cs) g H0 G Hf HD Ho HN) as (ds & Ed & EB & E0 & E1 & Hd).
  exists ds.
  assert (EG : get_DS dev g = (Grid (gcloud g) (gcells g) (gbox g) (gnc g) (gkeys g) (gsidx g) (gskeys g)
                    (gspts g) (gsbids g) (Some ds), Ok ds)).
  { unfold get_DS. rewrite En. rewrite (ic_bsize _ _ _ _ _ _ _ (ig_cloud _ _ _ _ _ _ _ _ G)), Ed. reflexivity. }
  split; [rewrite EG; reflexivity|]. split; [rewrite EG; reflexivity|].
  intros b x y. split.
  - intros (Hb & Hx & Hy). destruct (Hd b x y Hb Hx Hy) as (s & e & El & Hs & He & Hj).
    exists s, e. split; [exact El|]. split; [exact Hs|]. split; [exact He|].
    intros j Hjn. rewrite (Hj j Hjn). unfold scell, cell_at, lo_at.
    rewrite <- (sbids_nth _ _ _ _ _ _ _ _ G j Hjn), <- (spts_nth _ _ _ _ _ _ _ _ G j Hjn).
    split; intros (-> & X & Y); auto.
  - intros Hn. unfold ds_lookup. rewrite EB, E0, E1.
    destruct (Nat.ltb_spec b B); [|reflexivity].
    destruct (Z.leb_spec 0 x); [|reflexivity].
    destruct (Z.ltb_spec x (nth 0 (gnc g) 0)); [|reflexivity].
    destruct (Z.leb_spec 0 y); [|reflexivity].
    destruct (Z.ltb_spec y (nth 1 (gnc g) 0)); [|reflexivity].
    exfalso. apply Hn. auto.
Qed.

Example C13_access_partial_ex_proof :
  exists p g ds, init (P2 3 ex_pts) (Some ex_bids) None None = Ok p /\ mk_grid CPU 0 p [4#3] = Ok g /\
    snd (get_DS CPU g) = Ok ds /\ gsidx g = [4;2;1;3;0]%nat /\
    ds_lookup ds 0 0 1 = Some (2, 4) /\ ds_lookup ds 1 0 0 = Some (0, 1) /\ ds_lookup ds 0 2 1 = Some (0, 0).
Proof.
  eexists. eexists. eexists. split; [reflexivity|]. split; [vm_compute; reflexivity|].
  split; [vm_compute; reflexivity|]. repeat split; vm_compute; reflexivity.
Qed.

(** C13, boundary. In the boundary case without effective margin the range of
    a cell contains a point of a different cell. *)
Lemma C13_boundary_refuted_proof :
  exists (dev : device) (p : pc) (g : grid) (ds : grid_ds) (rows : list point) (ids : list nat) (cs : list Q) (lo : list Q),
    cloud dev 0 2 rows ids 1 p /\ valid_sizes 2 cs /\ mk_grid dev 0 p cs = Ok g /\
    snd (get_DS dev g) = Ok ds /\ lower_corner 2 0 rows ids 0 lo /\
    exists x y s e j, ds_lookup ds 0 x y = Some (s, e) /\ (j < length ids)%nat /\ s <= Z.of_nat j < e /\
      cell lo (all_dims 2 cs) (nth j (gspts g) []) 0 <> x.
Proof.
  set (rows := [[0#1;2#1];[1#1;0#1];[3#2;1#1]] : list point).
  destruct (init (P2 2 rows) (Some [0;0;0]%nat) None None) as [p|] eqn:E; [|discriminate].
  assert (Hc : cloud CPU 0 2 rows [0;0;0]%nat 1 p).
  { eapply cloud_new; [exact E|..]; try (vm_compute in E; inversion E; subst; reflexivity); try reflexivity;
    repeat constructor. }
  vm_compute in E; inversion E; subst p; clear E.
  match type of Hc with cloud _ _ _ _ _ _ ?p => destruct (mk_grid CPU 0 p [1#1]) as [g|] eqn:Eg;
    [|vm_compute in Eg; discriminate] end.
  vm_compute in Eg. inversion Eg; subst g; clear Eg.
  eexists CPU, _, _, _, rows, [0;0;0]%nat, [1#1], [0#1;0#1].
  split; [exact Hc|]. split; [split; [reflexivity|repeat constructor]|].
  split; [vm_compute; reflexivity|]. split; [vm_compute; reflexivity|].
  split.
  { intros d Hd. assert (d = 0%nat \/ d = 1%nat) as [->| ->] by lia; split;
      try (intros i Hi _; do 3 (destruct i as [|i]; [vm_compute; discriminate|]); cbn in Hi; lia).
    - exists 0%nat. repeat split; cbn; lia.
    - exists 1%nat. repeat split; cbn; lia. }
  exists 1, 0, 1, 3, 1%nat. split; [vm_compute; reflexivity|]. split; [cbn; lia|].
  split; [lia|]. vm_compute; discriminate.
Qed.

(** C13. In one dimension the structure cannot be built. *)
Lemma C13_one_dimension_proof :
  forall dev eps rows ids B cs p,
    cloud dev eps 1 rows ids B p -> valid_sizes 1 cs ->
    exists g e, mk_grid dev eps p cs = Ok g /\ snd (get_DS dev g) = Err e.
Proof.
  intros dev eps rows ids B cs p Hc Hv. apply cloud_is in Hc.
  destruct (mk_grid_ok dev eps 1 rows ids B p cs Hc Hv) as (g & E & G & En).
  exists g, InvalidArgument. split; [exact E|].
  unfold get_DS. rewrite En. pose proof (nc_length _ _ _ _ _ _ _ _ G) as Hl.
  destruct (gnc g) as [|n [|m r]] eqn:Enc; try discriminate. reflexivity.
Qed.

Example C13_one_dimension_ex_proof :
  exists p g, init (P2 1 [[1#1];[2#1]]) (Some [0;0]%nat) None None = Ok p /\ mk_grid CPU 0 p [4#3] = Ok g /\
    snd (get_DS CPU g) = Err InvalidArgument.
Proof. eexists. eexists. split; [reflexivity|]. split; [vm_compute; reflexivity|]. vm_compute; reflexivity. Qed.
