(** Facts about the neighbor search model. *)
From Coq Require Import List Arith ZArith QArith Qround Lia Lqa Bool Permutation Sorted.
From Verif Require Import Tensor TensorFacts Spec PointCloud SpecCloud History PointCloudFacts QFacts
  CloudProofs Grid SpecGrid GridFacts GridProofs Neighbors SpecNeighbors.
Import ListNotations.
Local Open Scope Z_scope.

(** * Grids in any reachable state *)

Lemma is_grid_get_DS dev eps D rows ids B cells g :
  is_grid dev eps D rows ids B cells g -> is_grid dev eps D rows ids B cells (fst (get_DS dev g)).
Proof.
  intros G. unfold get_DS. destruct (gds g) eqn:E; [exact G|].
  destruct (build_grid_ds dev (gskeys g) (gnc g) (bsize (gcloud g))) as [d|] eqn:Eb; [|exact G].
  pose proof (ic_bsize _ _ _ _ _ _ _ (ig_cloud _ _ _ _ _ _ _ _ G)) as EB.
  destruct G as [G1 G2 G3 G4 G5 G6 G7 G8 G9 G10 G11 G12 G13]. constructor; cbn; auto.
  intros d' Hd. inversion Hd; subst d'. rewrite <- EB. exact Eb.
Qed.

Lemma grid_for_is dev eps D rows ids B cs g :
  valid_sizes D cs -> grid_for dev eps D rows ids B cs g ->
  is_grid dev eps D rows ids B (bcast D cs) g.
Proof.
  intros Hv. induction 1 as [p g Hc E|g H IH|g o H IH].
  - apply cloud_is in Hc. destruct (mk_grid_ok dev eps D rows ids B p cs Hc Hv) as (g' & E' & G & _).
    rewrite E in E'. inversion E'. exact G.
  - now apply is_grid_get_DS.
  - destruct IH as [G1 G2 G3 G4 G5 G6 G7 G8 G9 G10 G11 G12 G13]. constructor; cbn; auto.
    now apply is_cloud_step.
Qed.

(** * Distances and cells *)

Lemma Qltb_lt x y : Qltb x y = true <-> (x < y)%Q.
Proof.
  unfold Qltb. rewrite negb_true_iff. split; intros H.
  - apply Qnot_le_lt. intros H'. apply Qle_bool_iff in H'. congruence.
  - apply not_true_is_false. rewrite Qle_bool_iff. lra.
Qed.

Lemma norm_lt_iff D p q r : length p = D -> length q = D -> (0 < r)%Q ->
  norm_lt p q r = true <-> (dist2 D p q < r * r)%Q.
Proof.
  intros Hp Hq Hr. unfold norm_lt. rewrite andb_true_iff, !Qltb_lt, (sq_dist_coords D) by assumption.
  unfold dist2. fold (Qsum). unfold coord. tauto.
Qed.

Lemma norm_le_iff D p q r : length p = D -> length q = D -> (0 <= r)%Q ->
  norm_le p q r = true <-> (dist2 D p q <= r * r)%Q.
Proof.
  intros Hp Hq Hr. unfold norm_le. rewrite andb_true_iff, !Qle_bool_iff, (sq_dist_coords D) by assumption.
  unfold dist2. fold (Qsum). unfold coord. tauto.
Qed.

Lemma Qsq_nonneg (t : Q) : (0 <= t * t)%Q.
Proof. destruct (Qlt_le_dec t 0); nra. Qed.

Lemma dist2_coord D p q r d : (d < D)%nat -> (0 < r)%Q -> (dist2 D p q < r * r)%Q ->
  (- r < coord p d - coord q d /\ coord p d - coord q d < r)%Q.
Proof.
  intros Hd Hr H.
  assert (Hle : ((coord p d - coord q d) * (coord p d - coord q d) <= dist2 D p q)%Q).
  { unfold dist2, coord.
    apply (Qsum_ge_elem (fun d => (nth d p 0 - nth d q 0) * (nth d p 0 - nth d q 0))%Q).
    - intros a _. apply Qsq_nonneg.
    - apply in_seq. lia. }
  set (t := (coord p d - coord q d)%Q) in *.
  split; apply Qnot_le_lt; intros Hn.
  - assert (r * r <= t * t)%Q by nra. lra.
  - assert (r * r <= t * t)%Q by nra. lra.
Qed.

(** Coordinates closer than the cell size are in the same or adjacent cells. *)
Lemma floor_adjacent a b h : (0 < h)%Q -> (- h < a - b)%Q -> (a - b < h)%Q ->
  (-1 <= Qfloor (a / h) - Qfloor (b / h) <= 1)%Z.
Proof.
  intros Hh H1 H2.
  assert (Ha : (Qfloor (a / h) < Qfloor (b / h) + 2)%Z).
  { apply Qfloor_lt_iff. apply div_lt_iff; [exact Hh|].
    pose proof (Qlt_floor (b / h)) as Hb. apply div_lt_iff in Hb; [|exact Hh].
    rewrite inject_Z_plus in *. change (inject_Z 1) with 1%Q in Hb. change (inject_Z 2) with 2%Q. lra. }
  assert (Hb : (Qfloor (b / h) < Qfloor (a / h) + 2)%Z).
  { apply Qfloor_lt_iff. apply div_lt_iff; [exact Hh|].
    pose proof (Qlt_floor (a / h)) as Hb. apply div_lt_iff in Hb; [|exact Hh].
    rewrite inject_Z_plus in *. change (inject_Z 1) with 1%Q in Hb. change (inject_Z 2) with 2%Q. lra. }
  lia.
Qed.

(** * Lists *)

Lemma mapM_ok {A B} (f : A -> result B) (h : A -> B) l :
  (forall a, In a l -> f a = Ok (h a)) -> mapM f l = Ok (map h l).
Proof.
  induction l as [|a l IH]; intros H; [reflexivity|]. cbn.
  rewrite (H a (or_introl eq_refl)). cbn. rewrite IH by (intros; apply H; now right). reflexivity.
Qed.

Lemma mapM_err {A B} (f : A -> result B) e l :
  (forall a, In a l -> f a = Err e \/ exists b, f a = Ok b) ->
  (exists a, In a l /\ f a = Err e) -> mapM f l = Err e.
Proof.
  induction l as [|a l IH]; intros H [x [Hx Ex]]; [contradiction|]. cbn.
  destruct (H a (or_introl eq_refl)) as [Ea|[b Eb]].
  - rewrite Ea. reflexivity.
  - rewrite Eb. cbn. destruct Hx as [->|Hx]; [congruence|].
    rewrite IH; [reflexivity| |eauto]. intros y Hy. apply H. now right.
Qed.

Lemma filter_nil {A} (P : A -> bool) l : (forall a, In a l -> P a = false) -> filter P l = [].
Proof.
  induction l as [|a l IH]; intros H; [reflexivity|]. cbn. rewrite (H a (or_introl eq_refl)).
  apply IH. intros; apply H; now right.
Qed.

Lemma filter_window (P : nat -> bool) s e n :
  (s <= e)%nat -> (e <= n)%nat -> (forall j, (j < n)%nat -> P j = true -> (s <= j < e)%nat) ->
  filter P (seq s (e - s)) = filter P (seq 0 n).
Proof.
  intros H1 H2 H. replace n with (s + ((e - s) + (n - e)))%nat by lia.
  rewrite !seq_app, !filter_app. cbn [Nat.add].
  rewrite (filter_nil P (seq 0 s)).
  2:{ intros j Hj. apply in_seq in Hj. destruct (P j) eqn:E; [|reflexivity]. apply H in E; lia. }
  rewrite (filter_nil P (seq (s + (e - s)) (n - e))).
  2:{ intros j Hj. apply in_seq in Hj. destruct (P j) eqn:E; [|reflexivity]. apply H in E; lia. }
  cbn [app]. now rewrite app_nil_r.
Qed.

(** Cumulative ends of blocks. *)
Fixpoint cum_ends (cur : Z) (blocks : list (list nat)) : list Z :=
  match blocks with
  | [] => []
  | b :: r => let cur' := cur + Z.of_nat (length b) in cur' :: cum_ends cur' r
  end.
Fixpoint tagged (i : nat) (blocks : list (list nat)) : list (nat * nat) :=
  match blocks with
  | [] => []
  | b :: r => map (fun j => (j, i)) b ++ tagged (S i) r
  end.

Lemma cum_ends_length cur bl : length (cum_ends cur bl) = length bl.
Proof. revert cur; induction bl; intros; cbn; auto. Qed.

Lemma tagged_In i bl j k : In (j, k) (tagged i bl) <->
  (i <= k < i + length bl)%nat /\ In j (nth (k - i) bl []).
Proof.
  revert i; induction bl as [|b bl IH]; intros i; cbn [tagged length].
  - split; [intros []|]. lia.
  - rewrite in_app_iff, in_map_iff, IH. split.
    + intros [(x & E & Hx)|[H1 H2]].
      * inversion E; subst. split; [lia|]. now rewrite Nat.sub_diag.
      * split; [lia|]. destruct (k - i)%nat eqn:E; [lia|]. cbn. replace (k - S i)%nat with n in H2 by lia. exact H2.
    + intros [H1 H2]. destruct (Nat.eq_dec k i) as [->|Hne].
      * left. exists j. rewrite Nat.sub_diag in H2. auto.
      * right. split; [lia|]. destruct (k - i)%nat eqn:E; [lia|]. cbn in H2. now replace (k - S i)%nat with n by lia.
Qed.

Lemma NoDup_app_intro {A} (l m : list A) :
  NoDup l -> NoDup m -> (forall a, In a l -> ~ In a m) -> NoDup (l ++ m).
Proof.
  induction l as [|a l IH]; intros H1 H2 H; [exact H2|]. inversion H1; subst. cbn. constructor.
  - rewrite in_app_iff. intros [X|X]; [contradiction|]. apply (H a); [now left|exact X].
  - apply IH; auto. intros x Hx. apply H. now right.
Qed.

Lemma tagged_NoDup i bl : Forall (@NoDup nat) bl -> NoDup (tagged i bl).
Proof.
  revert i; induction bl as [|b bl IH]; intros i H; [constructor|]. inversion H; subst. cbn.
  apply NoDup_app_intro.
  - apply FinFun.Injective_map_NoDup; [|assumption]. intros x y E. now inversion E.
  - now apply IH.
  - intros [j k] Hj Hk. apply in_map_iff in Hj as (x & E & _). inversion E; subst.
    apply tagged_In in Hk. lia.
Qed.

Lemma tagged_app i b1 b2 : tagged i (b1 ++ b2) = tagged i b1 ++ tagged (i + length b1) b2.
Proof.
  revert i; induction b1 as [|b b1 IH]; intros i; cbn; [now rewrite Nat.add_0_r|].
  rewrite IH, <- app_assoc. now rewrite Nat.add_succ_r.
Qed.

Lemma cum_ends_nth cur bl i : (i < length bl)%nat ->
  nth i (cum_ends cur bl) 0 = cur + Z.of_nat (length (concat (firstn (S i) bl))).
Proof.
  revert cur i; induction bl as [|b bl IH]; intros cur i Hi; [cbn in Hi; lia|].
  destruct i as [|i]; cbn [cum_ends nth firstn concat].
  - rewrite app_length. cbn. lia.
  - rewrite IH by (cbn in Hi; lia). rewrite app_length. cbn [firstn]. lia.
Qed.

Lemma tagged_length i bl : length (tagged i bl) = length (concat bl).
Proof. revert i; induction bl; intros; cbn; [reflexivity|]. now rewrite !app_length, map_length, IHbl. Qed.

Lemma filter_all {A} (P : A -> bool) l : (forall a, In a l -> P a = true) -> filter P l = l.
Proof.
  induction l as [|a l IH]; intros H; [reflexivity|]. cbn. rewrite (H a (or_introl eq_refl)).
  f_equal. apply IH. intros; apply H; now right.
Qed.

Lemma slice_app {A} (l1 l2 l3 : list A) :
  slice (length l1) (length l1 + length l2) (l1 ++ l2 ++ l3) = l2.
Proof.
  unfold slice. rewrite skipn_app, skipn_all, Nat.sub_diag. cbn [skipn app].
  replace (length l1 + length l2 - length l1)%nat with (length l2) by lia.
  rewrite firstn_app, firstn_all, Nat.sub_diag. cbn. apply app_nil_r.
Qed.

Lemma delimits_tagged bl : delimits (cum_ends 0 bl) (tagged 0 bl) (length bl).
Proof.
  split; [apply cum_ends_length|]. split.
  { intros H. rewrite cum_ends_nth by lia. rewrite tagged_length.
    replace (S (length bl - 1)) with (length bl) by lia. rewrite firstn_all. lia. }
  intros i Hi. cbv zeta.
  assert (Hs : (match i with 0%nat => 0 | S k => nth k (cum_ends 0 bl) 0 end) = Z.of_nat (length (concat (firstn i bl)))).
  { destruct i as [|k]; [reflexivity|]. rewrite cum_ends_nth by lia. lia. }
  rewrite Hs, cum_ends_nth by exact Hi.
  pose proof (firstn_skipn i bl) as Eb. 
  assert (En : skipn i bl = nth i bl [] :: skipn (S i) bl).
  { clear -Hi. revert i Hi; induction bl as [|b bl IH]; intros [|i] Hi; cbn in *; try lia; [reflexivity|]. apply IH. lia. }
  assert (El : length (concat (firstn (S i) bl)) = (length (concat (firstn i bl)) + length (nth i bl []))%nat).
  { clear -Hi. revert i Hi; induction bl as [|b bl IH]; intros [|i] Hi; cbn in Hi; try lia.
    - cbn. rewrite app_nil_r. reflexivity.
    - cbn [firstn concat nth]. cbn [firstn concat nth] in IH. rewrite !app_length. specialize (IH i ltac:(lia)). cbn [firstn concat] in IH. lia. }
  rewrite El. set (a := concat (firstn i bl)) in *. set (m := nth i bl []) in *.
  assert (Et : tagged 0 bl = tagged 0 (firstn i bl) ++ map (fun j => (j, i)) m ++ tagged (S i) (skipn (S i) bl)).
  { rewrite <- Eb at 1. rewrite En. rewrite tagged_app. cbn [Nat.add]. f_equal.
    rewrite firstn_length, Nat.min_l by lia. reflexivity. }
  assert (L1 : length (tagged 0 (firstn i bl)) = length a) by apply tagged_length.
  assert (L2 : length (map (fun j : nat => (j, i)) m) = length m) by apply map_length.
  split; [lia|]. split.
  { rewrite Et, !app_length, L1, L2. lia. }
  rewrite Z.add_0_l, !Nat2Z.id. rewrite Et. rewrite <- L1, <- L2, slice_app.
  rewrite !filter_app. rewrite (filter_nil _ (tagged 0 (firstn i bl))).
  2:{ intros [x y] H. apply tagged_In in H. rewrite firstn_length in H. cbn [snd]. apply Nat.eqb_neq. lia. }
  rewrite (filter_nil _ (tagged (S i) _)).
  2:{ intros [x y] H. apply tagged_In in H. cbn [snd]. apply Nat.eqb_neq. lia. }
  rewrite filter_all; [now rewrite app_nil_r|].
  intros [x y] H. apply in_map_iff in H as (z & E & _). inversion E; subst. apply Nat.eqb_refl.
Qed.

(** * The search loop *)

Section Search.
  Context (dev : device) (eps : Q) (D : nat) (rows : list point) (ids : list nat) (B : nat)
          (cells : point) (g : grid).
  Hypothesis Heps : (0 <= eps)%Q.
  Hypothesis G : is_grid dev eps D rows ids B cells g.
  Hypothesis Hfit : fits eps D cells rows ids.
  Hypothesis HD : (2 <= D)%nat.
  Hypothesis Hover : Z.of_nat B * zprod (gnc g) <= 2 ^ 31.
  Hypothesis HN : Z.of_nat (length ids) < int32_max.
  Context (ds : grid_ds).
  Hypothesis Hds : build_grid_ds dev (gskeys g) (gnc g) B = Ok ds.
  Context (r0 r1 : Q).
  Hypothesis Hr0 : (r0 == coord cells 0)%Q.
  Hypothesis Hr1 : (r1 == coord cells 1)%Q.
  Hypothesis Hr01 : (r0 <= r1)%Q.

  Let n0 := nth 0 (gnc g) 0.
  Let n1 := nth 1 (gnc g) 0.
  Let N := length ids.

  Definition close_to (c : point) (b : nat) (j : nat) : bool :=
    norm_lt (nth j (gspts g) []) c r0 && Nat.eqb (nth j (gsbids g) 0%nat) b.

  Definition ccell (c : point) (b d : nat) : Z := raw_cell (lo_of eps D rows ids b) [r0; r1] c d.

  Lemma Hr0pos : (0 < r0)%Q.
  Proof. rewrite Hr0. apply (ig_cells_pos _ _ _ _ _ _ _ _ G). lia. Qed.
  Lemma Hr1pos : (0 < r1)%Q.
  Proof. pose proof Hr0pos. lra. Qed.

  Lemma ds_facts : dsB ds = B /\
      forall b x y, (b < B)%nat ->
       (0 <= x < n0 -> 0 <= y < n1 ->
        exists s e, ds_lookup ds b x y = Some (s, e) /\ 0 <= s <= e /\ e <= Z.of_nat N /\
          forall j, (j < N)%nat ->
            (s <= Z.of_nat j < e <->
             nth j (gsbids g) 0%nat = b /\ scell eps D rows ids cells g j 0 = x /\ scell eps D rows ids cells g j 1 = y)) /\
       (~ (0 <= x < n0 /\ 0 <= y < n1) -> ds_lookup ds b x y = None).
  Proof.
    destruct (grid_ds_ok dev eps D rows ids B cells g Heps G Hfit HD Hover HN) as (d & E & EB & E0 & E1 & Hd).
    rewrite Hds in E. inversion E; subst d. split; [exact EB|].
    intros b x y Hb. split; [intros; now apply Hd|].
    intros Hn. unfold ds_lookup. rewrite EB, E0, E1. fold n0 n1.
    destruct (Nat.ltb_spec b B); [|reflexivity].
    destruct (Z.leb_spec 0 x); [|reflexivity].
    destruct (Z.ltb_spec x n0); [|reflexivity].
    destruct (Z.leb_spec 0 y); [|reflexivity].
    destruct (Z.ltb_spec y n1); [|reflexivity].
    exfalso. apply Hn. auto.
  Qed.

  (** The entry read for an adjacent cell on a GPU. *)
  Definition entry b x y : Z * Z := match ds_lookup ds b x y with Some r => r | None => (0, 0) end.

  Lemma entry_bounds b x y : (b < B)%nat -> 0 <= fst (entry b x y) <= snd (entry b x y) /\ snd (entry b x y) <= Z.of_nat N.
  Proof.
    intros Hb. destruct ds_facts as [_ H]. destruct (H b x y Hb) as [H1 H2]. unfold entry.
    destruct (Z_le_dec 0 x); [destruct (Z_lt_dec x n0); [destruct (Z_le_dec 0 y); [destruct (Z_lt_dec y n1)|]|]|].
    1:{ destruct H1 as (s & e & -> & Hs & He & _); auto. }
    all: rewrite H2 by lia; cbn; lia.
  Qed.

  (** Close points of the element of the center lie in one of the nine cells. *)
  Lemma close_cell c b j : length c = D -> (b < B)%nat -> (j < N)%nat -> close_to c b j = true ->
    exists o, In o nb_offsets /\
      clip n0 (clip n0 (ccell c b 0) + fst o) = scell eps D rows ids cells g j 0 /\
      clip n1 (clip n1 (ccell c b 1) + snd o) = scell eps D rows ids cells g j 1 /\
      nth j (gsbids g) 0%nat = b.
  Proof.
    intros Hc Hb Hj H. unfold close_to in H. apply andb_true_iff in H as [H1 H2]. apply Nat.eqb_eq in H2.
    pose proof (sidx_lt _ _ _ _ _ _ _ _ G j Hj) as Hsj.
    assert (Lp : length (nth j (gspts g) []) = D).
    { rewrite (spts_nth _ _ _ _ _ _ _ _ G j Hj).
      pose proof (ic_rows _ _ _ _ _ _ _ (ig_cloud _ _ _ _ _ _ _ _ G)) as HF. rewrite Forall_forall in HF.
      apply HF, nth_In. rewrite (g_len _ _ _ _ _ _ _ _ G). exact Hsj. }
    apply (norm_lt_iff D) in H1; [|exact Lp|exact Hc|exact Hr0pos].
    assert (Hadj : forall d r, (d < 2)%nat -> nth d [r0; r1] 0%Q = r -> (r == coord cells d)%Q -> (0 < r)%Q -> (r0 <= r)%Q ->
      -1 <= scell eps D rows ids cells g j d - ccell c b d <= 1).
    { intros d r Hd Hn Hrc Hrp Hr. unfold scell, cell_at, ccell, raw_cell, lo_at.
      rewrite <- (sbids_nth _ _ _ _ _ _ _ _ G j Hj), <- (spts_nth _ _ _ _ _ _ _ _ G j Hj), H2.
      change (coord [r0; r1] d) with (nth d [r0; r1] 0%Q). rewrite Hn.
      destruct (dist2_coord D _ _ r0 d ltac:(lia) Hr0pos H1) as [X1 X2].
      assert (Eq : ((coord (nth j (gspts g) []) d - coord (lo_of eps D rows ids b) d) / coord cells d ==
                   (coord (nth j (gspts g) []) d - coord (lo_of eps D rows ids b) d) / r)%Q) by (now rewrite Hrc).
      rewrite (Qfloor_comp _ _ Eq). apply floor_adjacent; [exact Hrp|lra|lra]. }
    pose proof (Hadj 0%nat r0 ltac:(lia) eq_refl Hr0 Hr0pos ltac:(lra)) as A0.
    pose proof (Hadj 1%nat r1 ltac:(lia) eq_refl Hr1 Hr1pos Hr01) as A1.
    pose proof (cell_at_range _ _ _ _ _ _ _ _ Heps G Hfit _ 0%nat Hsj ltac:(lia)) as R0.
    pose proof (cell_at_range _ _ _ _ _ _ _ _ Heps G Hfit _ 1%nat Hsj ltac:(lia)) as R1.
    fold (scell eps D rows ids cells g j 0) n0 in R0. fold (scell eps D rows ids cells g j 1) n1 in R1.
    set (s0 := scell eps D rows ids cells g j 0) in *. set (s1 := scell eps D rows ids cells g j 1) in *.
    exists (s0 - clip n0 (ccell c b 0), s1 - clip n1 (ccell c b 1)). cbn [fst snd].
    assert (B0 : -1 <= s0 - clip n0 (ccell c b 0) <= 1) by (unfold clip; lia).
    assert (B1 : -1 <= s1 - clip n1 (ccell c b 1) <= 1) by (unfold clip; lia).
    split; [|split; [|split; [|exact H2]]].
    - assert (C : forall z, -1 <= z <= 1 -> z = -1 \/ z = 0 \/ z = 1) by (intros; lia).
      destruct (C _ B0) as [-> | [-> | ->]]; destruct (C _ B1) as [-> | [-> | ->]]; cbn; tauto.
    - unfold clip at 1. lia.
    - unfold clip at 1. lia.
  Qed.

  (** A center all of whose adjacent cells can be read. *)
  Definition readable (c : point) (b : nat) : Prop :=
    dev = GPU \/ (Z.max 0 (ccell c b 0) < n0 - 1 /\ Z.max 0 (ccell c b 1) < n1 - 1).

  Lemma nc01_pos : 1 <= n0 /\ 1 <= n1.
  Proof. split; apply (nc_pos _ _ _ _ _ _ _ _ G); lia. Qed.

  Lemma gather_readable c b o : (b < B)%nat -> readable c b -> In o nb_offsets ->
    ds_gather dev ds b (clip n0 (clip n0 (ccell c b 0) + fst o)) (clip n1 (clip n1 (ccell c b 1) + snd o)) =
    Ok (entry b (clip n0 (clip n0 (ccell c b 0) + fst o)) (clip n1 (clip n1 (ccell c b 1) + snd o))).
  Proof.
    intros Hb Hrd Ho. unfold ds_gather, entry.
    destruct (ds_lookup ds b _ _) as [r|] eqn:E; [reflexivity|].
    destruct Hrd as [-> |[H0 H1]]; [reflexivity|].
    destruct ds_facts as [_ H].
    destruct (H b (clip n0 (clip n0 (ccell c b 0) + fst o)) (clip n1 (clip n1 (ccell c b 1) + snd o)) Hb) as [HS _].
    pose proof nc01_pos as [P0 P1].
    assert (Ho' : -1 <= fst o <= 1 /\ -1 <= snd o <= 1).
    { cbn in Ho. repeat (destruct Ho as [<-|Ho]; [cbn; lia|]). contradiction. }
    destruct HS as (s & e & E' & _).
    - unfold clip. lia.
    - unfold clip. lia.
    - congruence.
  Qed.

  Definition window (c : point) (b : nat) : list (Z * Z) :=
    map (fun o => entry b (clip n0 (clip n0 (ccell c b 0) + fst o)) (clip n1 (clip n1 (ccell c b 1) + snd o))) nb_offsets.

  Lemma window_spec c b : length c = D -> (b < B)%nat ->
    let s := fold_right Z.min int32_max (map fst (window c b)) in
    let e := fold_right Z.max int32_min (map snd (window c b)) in
    filter (close_to c b) (zrange s e) = filter (close_to c b) (seq 0 N).
  Proof.
    intros Hc Hb s e.
    pose proof (fold_min_spec int32_max (map fst (window c b))) as (M1 & M2 & M3). fold s in M1, M2, M3.
    pose proof (fold_max_spec int32_min (map snd (window c b))) as (X1 & X2 & X3). fold e in X1, X2, X3.
    assert (Hall : forall w, In w (window c b) -> 0 <= fst w <= snd w /\ snd w <= Z.of_nat N).
    { intros w Hw. apply in_map_iff in Hw as (o & <- & _). now apply entry_bounds. }
    assert (Hw0 : exists w, In w (window c b)) by (eexists; left; reflexivity).
    destruct Hw0 as [w0 Hw0]. pose proof (Hall w0 Hw0) as W0.
    pose proof (M1 _ (in_map fst _ _ Hw0)) as S0. pose proof (X1 _ (in_map snd _ _ Hw0)) as E0.
    assert (Hs : 0 <= s).
    { destruct M3 as [-> |Hin]; [unfold int32_max; lia|]. apply in_map_iff in Hin as (w & <- & Hw). apply Hall in Hw. lia. }
    assert (He : e <= Z.of_nat N).
    { destruct X3 as [-> |Hin]; [unfold int32_min; lia|]. apply in_map_iff in Hin as (w & <- & Hw). apply Hall in Hw. lia. }
    unfold zrange. rewrite Z2Nat.inj_sub by exact Hs.
    apply filter_window; [lia|lia|].
    intros j Hj Hcl. destruct (close_cell c b j Hc Hb Hj Hcl) as (o & Ho & C0 & C1 & Hbj).
    assert (Hin : In (entry b (scell eps D rows ids cells g j 0) (scell eps D rows ids cells g j 1)) (window c b)).
    { apply in_map_iff. exists o. rewrite C0, C1. auto. }
    pose proof (sidx_lt _ _ _ _ _ _ _ _ G j Hj) as Hsj.
    pose proof (cell_at_range _ _ _ _ _ _ _ _ Heps G Hfit _ 0%nat Hsj ltac:(lia)) as R0.
    pose proof (cell_at_range _ _ _ _ _ _ _ _ Heps G Hfit _ 1%nat Hsj ltac:(lia)) as R1.
    fold (scell eps D rows ids cells g j 0) n0 in R0. fold (scell eps D rows ids cells g j 1) n1 in R1.
    destruct ds_facts as [_ H]. destruct (H b (scell eps D rows ids cells g j 0) (scell eps D rows ids cells g j 1) Hb) as [HS _]. destruct (HS R0 R1) as (s' & e' & El & _ & _ & Hj').
    assert (Ee : entry b (scell eps D rows ids cells g j 0) (scell eps D rows ids cells g j 1) = (s', e')).
    { unfold entry. now rewrite El. }
    rewrite Ee in Hin.
    pose proof (M1 _ (in_map fst _ _ Hin)) as Q1. pose proof (X1 _ (in_map snd _ _ Hin)) as Q2. cbn [fst snd] in Q1, Q2.
    assert (s' <= Z.of_nat j < e') by (apply Hj'; auto). lia.
  Qed.

  Definition nbs_of (cb : point * nat) : list nat := filter (close_to (fst cb) (snd cb)) (seq 0 N).

  Definition with_cells (l : list (point * nat)) : list ((point * nat) * (Z * Z)) :=
    map (fun cb => (cb, (clip n0 (ccell (fst cb) (snd cb) 0), clip n1 (ccell (fst cb) (snd cb) 1)))) l.

  Lemma nb_loop_ok i cur l :
    Forall (fun cb => length (fst cb) = D /\ (snd cb < B)%nat /\ readable (fst cb) (snd cb)) l ->
    nb_loop dev g ds r0 n0 n1 i cur (with_cells l) =
    Ok (cum_ends cur (map nbs_of l), tagged i (map nbs_of l)).
  Proof.
    revert i cur; induction l as [|[c b] l IH]; intros i cur H; [reflexivity|].
    inversion H as [|? ? (Hc & Hb & Hrd) H']; subst. cbn [fst snd] in *.
    cbn [with_cells map nb_loop fst snd]. fold (with_cells l).
    rewrite (proj1 ds_facts). replace (Nat.ltb b B) with true by (symmetry; now apply Nat.ltb_lt). cbn [negb].
    rewrite (mapM_ok _ (fun o => entry b (clip n0 (clip n0 (ccell c b 0) + fst o)) (clip n1 (clip n1 (ccell c b 1) + snd o))))
      by (intros o Ho; now apply gather_readable).
    fold (window c b). cbn [bind]. fold (close_to c b).
    rewrite (window_spec c b Hc Hb). fold (nbs_of (c, b)).
    rewrite (IH (S i) _ H'). reflexivity.
  Qed.

End Search.

(** On CPU a center in the last cell of one of the first two dimensions (or
    beyond) makes the search fail. *)
Lemma nb_loop_cpu_err g ds r0 n0 n1 (cc : point * nat -> Z * Z) i cur l :
  ds0 ds = n0 -> ds1 ds = n1 -> 1 <= n0 -> 1 <= n1 ->
  (exists cb, In cb l /\ (n0 - 1 <= Z.max 0 (fst (cc cb)) \/ n1 - 1 <= Z.max 0 (snd (cc cb)))) ->
  nb_loop CPU g ds r0 n0 n1 i cur (map (fun cb => (cb, (clip n0 (fst (cc cb)), clip n1 (snd (cc cb))))) l)
  = Err InvalidArgument.
Proof.
  intros D0 D1 P0 P1. revert i cur. induction l as [|[c b] l IH]; intros i cur (cb & Hin & Hcell); [contradiction|].
  cbn [map nb_loop fst snd].
  destruct (Nat.ltb b (dsB ds)); [|reflexivity]. cbn [negb].
  set (c0 := clip n0 (fst (cc (c, b)))). set (c1 := clip n1 (snd (cc (c, b)))).
  assert (Hg : forall o, In o nb_offsets ->
     ds_gather CPU ds b (clip n0 (c0 + fst o)) (clip n1 (c1 + snd o)) = Err InvalidArgument \/
     exists r, ds_gather CPU ds b (clip n0 (c0 + fst o)) (clip n1 (c1 + snd o)) = Ok r).
  { intros o _. unfold ds_gather. destruct (ds_lookup _ _ _ _); eauto. }
  destruct Hin as [E|Hin].
  - subst cb. rewrite (mapM_err _ InvalidArgument); [reflexivity|exact Hg|].
    exists (1, 1). split; [cbn; tauto|]. cbn [fst snd]. unfold ds_gather, ds_lookup. rewrite D0, D1.
    assert (Hx : clip n0 (c0 + 1) <? n0 = false \/ clip n1 (c1 + 1) <? n1 = false).
    { destruct Hcell as [H|H]; [left|right]; apply Z.ltb_ge; unfold c0, c1, clip; lia. }
    destruct Hx as [-> | ->]; rewrite !andb_false_r; try rewrite !andb_false_l; try rewrite andb_false_r; reflexivity.
  - destruct (mapM _ nb_offsets) as [adj|e] eqn:Em.
    + cbn [bind]. rewrite IH; [reflexivity|eauto].
    + assert (e = InvalidArgument) as ->; [|reflexivity].
      clear - Em. revert Em. generalize nb_offsets. intros os. revert e. induction os as [|o os IHo]; intros e Em; [discriminate|].
      cbn in Em. unfold ds_gather in Em at 1. destruct (ds_lookup _ _ _ _); cbn in Em; [|congruence].
      destruct (mapM _ os) as [|e'] eqn:E; cbn in Em; [discriminate|]. inversion Em; subst. now apply IHo.
Qed.

Lemma build_grid_ds_dims dev keys nc B d : build_grid_ds dev keys nc B = Ok d ->
  dsB d = B /\ ds0 d = nth 0 nc 0 /\ ds1 d = nth 1 nc 0.
Proof.
  destruct nc as [|n0 [|n1 rest]]; try discriminate. unfold build_grid_ds, zseg_reduce.
  destruct (match dev with CPU => _ | GPU => _ end); [discriminate|]. cbn [bind].
  intros E. inversion E; subst d. cbn. auto.
Qed.

Lemma build_grid_ds_err dev keys nc B e : build_grid_ds dev keys nc B = Err e -> e = InvalidArgument.
Proof.
  destruct nc as [|n0 [|n1 rest]]; cbn; try congruence. unfold zseg_reduce.
  destruct (match dev with CPU => _ | GPU => _ end); cbn [bind]; congruence.
Qed.

(** * The whole search *)

Lemma get_DS_result dev eps D rows ids B cells g :
  is_grid dev eps D rows ids B cells g ->
  snd (get_DS dev g) = build_grid_ds dev (gskeys g) (gnc g) B.
Proof.
  intros G. unfold get_DS. rewrite (ic_bsize _ _ _ _ _ _ _ (ig_cloud _ _ _ _ _ _ _ _ G)).
  destruct (gds g) as [d|] eqn:E.
  - symmetry. apply (ig_ds _ _ _ _ _ _ _ _ G d E).
  - destruct (build_grid_ds dev (gskeys g) (gnc g) B); reflexivity.
Qed.

Lemma centers_cells eps D rows ids B crows cids n0 n1 r0 r1 :
  length crows = length cids -> Forall (fun b => (b < B)%nat) cids ->
  combine (combine crows cids)
    (map (fun x => (clip n0 (raw_cell (snd x) [r0; r1] (fst x) 0), clip n1 (raw_cell (snd x) [r0; r1] (fst x) 1)))
       (combine crows (map (fun i => nth i (map (lo_of eps D rows ids) (seq 0 B)) []) cids))) =
  map (fun cb => (cb, (clip n0 (ccell eps D rows ids r0 r1 (fst cb) (snd cb) 0),
                       clip n1 (ccell eps D rows ids r0 r1 (fst cb) (snd cb) 1)))) (combine crows cids).
Proof.
  revert cids; induction crows as [|c crows IH]; intros [|b cids] Hl HB; try discriminate; [reflexivity|].
  apply Forall_cons_iff in HB as [Hb HB]. cbn [combine map fst snd]. f_equal.
  - rewrite nth_map_seq by exact Hb. reflexivity.
  - apply IH; [now inversion Hl|exact HB].
Qed.

(** * Soundness and ranges, without any assumption on the radii *)

Lemma zsegment_max_bound s data ids M : int32_min <= M -> (forall x, In x data -> x <= M) ->
  fold_right Z.max int32_min (zsegment s data ids) <= M.
Proof.
  intros HM H. destruct (fold_max_spec int32_min (zsegment s data ids)) as (_ & _ & [E|E]).
  { etransitivity; [apply Z.eq_le_incl; exact E|exact HM]. }
  apply H. change (In (fold_right Z.max int32_min (zsegment s data ids)) (zsegment s data ids)) in E. remember (fold_right Z.max int32_min (zsegment s data ids)) as m eqn:Em. clear Em. unfold zsegment in E. apply in_map_iff in E as ([v w] & Ev & Hin). cbn in Ev. rewrite <- Ev.
  apply filter_In in Hin as [Hin _]. now apply in_combine_l in Hin.
Qed.

Lemma build_grid_ds_bound dev keys nc B d : build_grid_ds dev keys nc B = Ok d ->
  dsB d = B /\ forall b x y s e, ds_lookup d b x y = Some (s, e) -> 0 <= s /\ e <= Z.of_nat (length keys).
Proof.
  destruct nc as [|n0 [|n1 rest]]; try discriminate. unfold build_grid_ds, zseg_reduce.
  destruct (match dev with CPU => _ | GPU => _ end); [discriminate|]. cbn [bind].
  intros E. inversion E; subst d; clear E. split; [reflexivity|].
  intros b x y s e. unfold ds_lookup. cbn [dsB ds0 ds1 dsranges].
  destruct (_ && _ && _ && _ && _); [|discriminate].
  intros E. apply nth_error_In in E. apply in_map_iff in E as ([f l] & E & Hin).
  apply in_combine_r in Hin. apply in_map_iff in Hin as (k & Ek & _).
  assert (Hl : l <= Z.of_nat (length keys)).
  { rewrite <- Ek. apply zsegment_max_bound; [unfold int32_min; lia|].
    intros z H. apply in_map_iff in H as (z' & <- & H). apply in_map_iff in H as (m & <- & H). apply in_seq in H. lia. }
  unfold ds_entry in E. destruct (Z.ltb_spec f 0); destruct (_ <? _); inversion E; subst; lia.
Qed.

Lemma adj_bounds dev ds b n0 n1 c0 c1 N :
  (forall b x y s e, ds_lookup ds b x y = Some (s, e) -> 0 <= s /\ e <= Z.of_nat N) ->
  forall os adj, mapM (fun o => ds_gather dev ds b (clip n0 (c0 + fst o)) (clip n1 (c1 + snd o))) os = Ok adj ->
  forall w, In w adj -> 0 <= fst w /\ snd w <= Z.of_nat N.
Proof.
  intros Hds. induction os as [|o os IH]; intros adj Em w H.
  - inversion Em; subst. contradiction.
  - cbn in Em. destruct (ds_gather dev ds b _ _) as [r|] eqn:Eg; [|discriminate]. cbn in Em.
    destruct (mapM _ os) as [adj'|] eqn:E'; [|discriminate]. cbn in Em. inversion Em; subst.
    destruct H as [<-|H]; [|now apply (IH adj')].
    unfold ds_gather in Eg. destruct (ds_lookup _ _ _ _) as [[s e]|] eqn:El.
    + inversion Eg; subst. apply Hds in El. exact El.
    + destruct dev; inversion Eg; subst. cbn. lia.
Qed.

Lemma nb_loop_sound dev g ds r0 n0 n1 N :
  (forall b x y s e, ds_lookup ds b x y = Some (s, e) -> 0 <= s /\ e <= Z.of_nat N) ->
  forall cs i cur ends nbs,
    nb_loop dev g ds r0 n0 n1 i cur cs = Ok (ends, nbs) ->
    exists bl, length bl = length cs /\ ends = cum_ends cur bl /\ nbs = tagged i bl /\
      forall k, (k < length cs)%nat -> NoDup (nth k bl []) /\
        forall j, In j (nth k bl []) -> (j < N)%nat /\
          close_to g r0 (fst (fst (nth k cs ([],0%nat,(0,0))))) (snd (fst (nth k cs ([],0%nat,(0,0))))) j = true.
Proof.
  intros Hds. induction cs as [|[[c b] [c0 c1]] cs IH]; intros i cur ends nbs E.
  - inversion E; subst. exists []. repeat split; cbn in *; lia.
  - cbn [nb_loop] in E. destruct (Nat.ltb b (dsB ds)); [|discriminate]. cbn [negb] in E.
    destruct (mapM _ nb_offsets) as [adj|] eqn:Em; [|discriminate]. cbn [bind] in E.
    set (ci := filter _ (zrange _ _)) in E.
    destruct (nb_loop dev g ds r0 n0 n1 (S i) (cur + Z.of_nat (length ci)) cs) as [[ends' nbs']|] eqn:El; [|discriminate].
    cbn in E. inversion E; subst ends nbs. destruct (IH _ _ _ _ El) as (bl & Lb & -> & -> & Hb).
    exists (ci :: bl). split; [cbn; now rewrite Lb|]. split; [reflexivity|]. split; [reflexivity|].
    intros k Hk. destruct k as [|k].
    + cbn [nth fst snd]. split; [apply NoDup_filter, seq_NoDup|]. intros j Hj. apply filter_In in Hj as [Hj Hc].
      split; [|exact Hc]. unfold zrange in Hj. apply in_seq in Hj.
      pose proof (adj_bounds dev ds b n0 n1 c0 c1 N Hds _ _ Em) as Hadj.
      pose proof (fold_max_spec int32_min (map snd adj)) as (_ & _ & He).
      pose proof (fold_min_spec int32_max (map fst adj)) as (_ & _ & Hs).
      set (s := fold_right Z.min int32_max (map fst adj)) in *. set (e := fold_right Z.max int32_min (map snd adj)) in *.
      assert (He' : e <= Z.of_nat N).
      { destruct He as [->|He]; [unfold int32_min; lia|]. apply in_map_iff in He as (w & <- & Hw). now apply Hadj. }
      assert (Hs' : 0 <= s).
      { destruct Hs as [->|Hs]; [unfold int32_max; lia|]. apply in_map_iff in Hs as (w & <- & Hw). now apply Hadj. }
      lia.
    + cbn [nth]. apply Hb. cbn in Hk. lia.
Qed.

Section Whole.
  Context (dev : device) (eps : Q) (D : nat) (rows : list point) (ids : list nat) (B : nat)
          (cells : point) (g : grid).
  Hypothesis Heps : (0 <= eps)%Q.
  Hypothesis G : is_grid dev eps D rows ids B cells g.
  Context (crows : list point) (cids : list nat) (cp : pc) (radii : list Q) (mx : nat).
  Hypothesis Cp : pts cp = crows.
  Hypothesis Cb : bids cp = cids.
  Hypothesis Cd : dim cp = D.
  Hypothesis Cl : length crows = length cids.
  Hypothesis Cr : Forall (fun r => length r = D) crows.
  Hypothesis HcB : Forall (fun b => (b < B)%nat) cids.
  Context (r0 r1 : Q) (rr : list Q).
  Hypothesis Hrad : bcast D radii = r0 :: r1 :: rr.
  Hypothesis Hp0 : (0 < r0)%Q.
  Hypothesis Hp1 : (0 < r1)%Q.

  Definition finish (out : list Z * list (nat * nat)) : result (ranges * list (nat * nat)) :=
    match fst out with
    | [] => Err ValueError
    | [x] => Ok (Ranges [] [x], snd out)
    | l => Ok (Ranges [length l] l, snd out)
    end.

  Lemma find_tf_unfold :
    snd (find_neighbors_tf dev g cp radii mx) =
    (ds <- build_grid_ds dev (gskeys g) (gnc g) B ;;
     out <- nb_loop dev g ds r0 (nth 0 (gnc g) 0) (nth 1 (gnc g) 0) 0 0
              (map (fun cb => (cb, (clip (nth 0 (gnc g) 0) (ccell eps D rows ids r0 r1 (fst cb) (snd cb) 0),
                       clip (nth 1 (gnc g) 0) (ccell eps D rows ids r0 r1 (fst cb) (snd cb) 1)))) (combine crows cids)) ;;
     finish out).
  Proof.
    unfold find_neighbors_tf. rewrite (ic_dim _ _ _ _ _ _ _ (ig_cloud _ _ _ _ _ _ _ _ G)), Hrad.
    assert (Hx : forall x, (0 < x)%Q -> Qle_bool x 0 = false).
    { intros x Hx. apply not_true_is_false. rewrite Qle_bool_iff. lra. }
    rewrite (Hx r0 Hp0), (Hx r1 Hp1), Cd, Nat.eqb_refl. cbn [orb negb].
    rewrite Cb, Cp, (ig_min _ _ _ _ _ _ _ _ G).
    rewrite (gather_map _ _ []) by (rewrite map_length, seq_length; exact HcB).
    rewrite (centers_cells eps D rows ids B crows cids) by assumption.
    rewrite <- (get_DS_result _ _ _ _ _ _ _ _ G).
    destruct (get_DS dev g) as [g' rds]. reflexivity.
  Qed.

  Definition blocks : list (list nat) := map (nbs_of ids g r0) (combine crows cids).
  Definition shape_of (n : nat) : list nat := match n with 1%nat => [] | _ => [n] end.

  Lemma blocks_length : length blocks = length cids.
  Proof. unfold blocks. rewrite map_length, combine_length, Cl. apply Nat.min_id. Qed.

  Section Exact.
    Hypothesis Hfit : fits eps D cells rows ids.
    Hypothesis HD : (2 <= D)%nat.
    Hypothesis Hover : Z.of_nat B * zprod (gnc g) <= 2 ^ 31.
    Hypothesis HN : Z.of_nat (length ids) < int32_max.
    Hypothesis Hr0 : (r0 == coord cells 0)%Q.
    Hypothesis Hr1 : (r1 == coord cells 1)%Q.
    Hypothesis Hr01 : (r0 <= r1)%Q.

    Lemma find_tf_ok :
      cids <> [] ->
      (dev = GPU \/ forall i, (i < length cids)%nat ->
         forall d, (d < 2)%nat -> Z.max 0 (ccell eps D rows ids r0 r1 (nth i crows []) (nth i cids 0%nat) d) < nth d (gnc g) 0 - 1) ->
      snd (find_neighbors_tf dev g cp radii mx) =
        Ok (Ranges (shape_of (length cids)) (cum_ends 0 blocks), tagged 0 blocks).
    Proof.
      intros Hne Hrd. rewrite find_tf_unfold.
      destruct (grid_ds_ok dev eps D rows ids B cells g Heps G Hfit HD Hover HN) as (ds & E & _).
      rewrite E. cbn [bind].
      pose proof (nb_loop_ok dev eps D rows ids B cells g Heps G Hfit HD Hover HN ds E r0 r1 Hr0 Hr1 Hr01 0 0
                    (combine crows cids)) as HL.
      unfold with_cells in HL. rewrite HL.
      - cbn [bind]. unfold finish. cbn [fst snd]. fold blocks.
        pose proof (cum_ends_length 0 blocks) as L. rewrite blocks_length in L.
        destruct (cum_ends 0 blocks) as [|x [|y l]] eqn:Ec.
        + destruct cids; [congruence|discriminate].
        + unfold shape_of. now rewrite <- L.
        + unfold shape_of. rewrite <- L. reflexivity.
      - apply Forall_forall. intros [c b] Hin. cbn [fst snd].
        apply (In_nth _ _ ([], 0%nat)) in Hin as (i & Hi & Ei).
        rewrite combine_length, Cl, Nat.min_id in Hi. rewrite combine_nth in Ei by exact Cl. inversion Ei as [[E1 E2]].
        split; [|split].
        + rewrite Forall_forall in Cr. apply Cr. apply nth_In. lia.
        + rewrite Forall_forall in HcB. apply HcB. apply nth_In. lia.
        + unfold readable. destruct Hrd as [Hd|Hd]; [now left|right]. split; apply Hd; lia.
    Qed.

    Lemma blocks_NoDup : Forall (@NoDup nat) blocks.
    Proof.
      apply Forall_forall. intros b Hb. apply in_map_iff in Hb as (x & <- & _). apply NoDup_filter, seq_NoDup.
    Qed.

    Lemma blocks_In j i : In (j, i) (tagged 0 blocks) <-> near D r0 (gspts g) (gsbids g) crows cids j i.
    Proof.
      rewrite tagged_In, blocks_length, Nat.add_0_l, Nat.sub_0_r. unfold near.
      rewrite (sbids_length _ _ _ _ _ _ _ _ G).
      split.
      - intros [[_ Hi] Hj]. unfold blocks in Hj.
        rewrite (nth_indep _ [] (nbs_of ids g r0 ([], 0%nat))) in Hj by (fold blocks; rewrite blocks_length; exact Hi).
        rewrite map_nth, combine_nth in Hj by exact Cl. unfold nbs_of in Hj. cbn [fst snd] in Hj.
        apply filter_In in Hj as [Hj Hc]. apply in_seq in Hj. apply andb_true_iff in Hc as [H1 H2].
        apply Nat.eqb_eq in H2. split; [lia|]. split; [exact Hi|]. split; [exact H2|].
        apply (norm_lt_iff D) in H1; auto.
        + rewrite (spts_nth _ _ _ _ _ _ _ _ G j) by lia.
          pose proof (ic_rows _ _ _ _ _ _ _ (ig_cloud _ _ _ _ _ _ _ _ G)) as HF. rewrite Forall_forall in HF.
          apply HF, nth_In. rewrite (g_len _ _ _ _ _ _ _ _ G). apply (sidx_lt _ _ _ _ _ _ _ _ G). lia.
        + rewrite Forall_forall in Cr. apply Cr. apply nth_In. lia.
      - intros (Hj & Hi & Hb & Hdist). split; [lia|]. unfold blocks.
        rewrite (nth_indep _ [] (nbs_of ids g r0 ([], 0%nat))) by (fold blocks; rewrite blocks_length; exact Hi).
        rewrite map_nth, combine_nth by exact Cl. unfold nbs_of. cbn [fst snd].
        apply filter_In. split; [apply in_seq; lia|]. apply andb_true_iff. split; [|now apply Nat.eqb_eq].
        apply (norm_lt_iff D); auto.
        + rewrite (spts_nth _ _ _ _ _ _ _ _ G j) by lia.
          pose proof (ic_rows _ _ _ _ _ _ _ (ig_cloud _ _ _ _ _ _ _ _ G)) as HF. rewrite Forall_forall in HF.
          apply HF, nth_In. rewrite (g_len _ _ _ _ _ _ _ _ G). apply (sidx_lt _ _ _ _ _ _ _ _ G). lia.
        + rewrite Forall_forall in Cr. apply Cr. apply nth_In. lia.
    Qed.
  End Exact.
  Lemma find_tf_cpu_err :
    dev = CPU -> (2 <= D)%nat ->
    (exists i d, (i < length cids)%nat /\ (d < 2)%nat /\
       nth d (gnc g) 0 - 1 <= Z.max 0 (ccell eps D rows ids r0 r1 (nth i crows []) (nth i cids 0%nat) d)) ->
    snd (find_neighbors_tf dev g cp radii mx) = Err InvalidArgument.
  Proof.
    intros Hdev HD (i & d & Hi & Hd & Hc). rewrite find_tf_unfold.
    destruct (build_grid_ds dev (gskeys g) (gnc g) B) as [ds|e] eqn:E.
    2:{ apply build_grid_ds_err in E. now subst. }
    apply build_grid_ds_dims in E as (_ & E0 & E1). cbn [bind]. rewrite Hdev.
    rewrite (nb_loop_cpu_err g ds r0 (nth 0 (gnc g) 0) (nth 1 (gnc g) 0)
       (fun cb => (ccell eps D rows ids r0 r1 (fst cb) (snd cb) 0, ccell eps D rows ids r0 r1 (fst cb) (snd cb) 1)));
      [reflexivity|exact E0|exact E1| | |].
    - apply (nc_pos _ _ _ _ _ _ _ _ G). lia.
    - apply (nc_pos _ _ _ _ _ _ _ _ G). lia.
    - exists (nth i crows [], nth i cids 0%nat). split.
      + rewrite <- combine_nth by exact Cl. apply nth_In. rewrite combine_length. lia.
      + cbn [fst snd]. assert (d = 0%nat \/ d = 1%nat) as [->| ->] by lia; [left|right]; exact Hc.
  Qed.

  Lemma find_tf_sound rg nbs :
    snd (find_neighbors_tf dev g cp radii mx) = Ok (rg, nbs) ->
    NoDup nbs /\ (forall j i, In (j, i) nbs -> near D r0 (gspts g) (gsbids g) crows cids j i) /\
    delimits (rdata rg) nbs (length cids) /\ rshape rg = shape_of (length cids) /\ cids <> [].
  Proof.
    rewrite find_tf_unfold.
    destruct (build_grid_ds dev (gskeys g) (gnc g) B) as [ds|e] eqn:E; [|discriminate]. cbn [bind].
    apply build_grid_ds_bound in E as (_ & Hb). rewrite (skeys_length _ _ _ _ _ _ _ _ G) in Hb.
    set (cs := map _ (combine crows cids)).
    destruct (nb_loop dev g ds r0 _ _ 0 0 cs) as [[ends nbs']|] eqn:El; [|discriminate]. cbn [bind].
    destruct (nb_loop_sound dev g ds r0 _ _ (length ids) Hb cs _ _ _ _ El) as (bl & Lb & Ee & En & Hbl).
    assert (Lc : length cs = length cids) by (unfold cs; rewrite map_length, combine_length, Cl; lia).
    intros Ef. assert (Hfin : nbs = nbs' /\ rdata rg = ends /\ rshape rg = shape_of (length cids) /\ cids <> []).
    { unfold finish in Ef. cbn [fst snd] in Ef.
      assert (Le : length ends = length cids) by (rewrite Ee, cum_ends_length; lia).
      destruct ends as [|x [|y l]]; [discriminate| |]; inversion Ef; subst rg; cbn [rdata rshape];
        (split; [reflexivity|]); (split; [reflexivity|]); (split; [unfold shape_of; now rewrite <- Le|]);
        intros ->; discriminate. }
    destruct Hfin as (-> & -> & Hsh & Hne). subst ends nbs'. rewrite <- Lc, <- Lb.
    split; [|split; [|split; [apply delimits_tagged|split; [now rewrite Lb, Lc|exact Hne]]]].
    - apply tagged_NoDup. apply Forall_forall. intros x Hx. apply (In_nth _ _ []) in Hx as (k & Hk & <-).
      apply Hbl. lia.
    - intros j i Hin. apply tagged_In in Hin as [[_ Hi] Hj]. rewrite Nat.sub_0_r in Hj.
      destruct (Hbl i ltac:(lia)) as [_ Hx]. destruct (Hx j Hj) as [Hjn Hcl].
      unfold cs in Hcl.
      set (F := fun cb : point * nat => (cb, (clip (nth 0 (gnc g) 0) (ccell eps D rows ids r0 r1 (fst cb) (snd cb) 0),
                       clip (nth 1 (gnc g) 0) (ccell eps D rows ids r0 r1 (fst cb) (snd cb) 1)))) in *.
      rewrite (nth_indep _ _ (F ([], 0%nat))) in Hcl by (fold cs; lia).
      rewrite map_nth, combine_nth in Hcl by exact Cl. unfold F in Hcl. cbn [fst snd] in Hcl.
      apply andb_true_iff in Hcl as [H1 H2]. apply Nat.eqb_eq in H2.
      unfold near. rewrite (sbids_length _ _ _ _ _ _ _ _ G).
      split; [exact Hjn|]. split; [lia|]. split; [exact H2|].
      apply (norm_lt_iff D) in H1; auto.
      + rewrite (spts_nth _ _ _ _ _ _ _ _ G j) by lia.
        pose proof (ic_rows _ _ _ _ _ _ _ (ig_cloud _ _ _ _ _ _ _ _ G)) as HF. rewrite Forall_forall in HF.
        apply HF, nth_In. rewrite (g_len _ _ _ _ _ _ _ _ G). apply (sidx_lt _ _ _ _ _ _ _ _ G). lia.
      + rewrite Forall_forall in Cr. apply Cr. apply nth_In. lia.
  Qed.
End Whole.

(** * Brute force *)

Lemma tagged_nth_snd bl i k :
  (i < length bl)%nat -> (k < length (tagged 0 bl))%nat ->
  (snd (nth k (tagged 0 bl) (0%nat, 0%nat)) = i <->
   (length (concat (firstn i bl)) <= k < length (concat (firstn (S i) bl)))%nat).
Proof.
  intros Hi Hk. pose proof (delimits_tagged bl) as (_ & _ & Hd).
  assert (G : forall b0 bl k, (k < length (tagged b0 bl))%nat ->
    (b0 <= snd (nth k (tagged b0 bl) (0%nat,0%nat)))%nat /\
    (length (concat (firstn (snd (nth k (tagged b0 bl) (0%nat,0%nat)) - b0) bl)) <= k <
     length (concat (firstn (S (snd (nth k (tagged b0 bl) (0%nat,0%nat)) - b0)) bl)))%nat).
  { clear. intros b0 bl; revert b0; induction bl as [|b bl IH]; intros b0 k Hk; [cbn in Hk; lia|].
    cbn [tagged] in *. rewrite app_length, map_length in Hk.
    destruct (lt_dec k (length b)) as [H|H].
    - rewrite app_nth1 by (rewrite map_length; exact H).
      rewrite (nth_indep _ _ ((fun j => (j, b0)) 0%nat)) by (rewrite map_length; exact H).
      rewrite (map_nth (fun j => (j, b0))). cbn [snd]. rewrite Nat.sub_diag. cbn. rewrite app_length. split; [lia|]. cbn. lia.
    - rewrite app_nth2 by (rewrite map_length; lia). rewrite map_length.
      specialize (IH (S b0) (k - length b)%nat ltac:(lia)).
      set (t := snd (nth (k - length b) (tagged (S b0) bl) (0%nat,0%nat))) in *. destruct IH as [H1 H2].
      split; [lia|]. replace (t - b0)%nat with (S (t - S b0)) by lia.
      cbn [firstn concat]. rewrite !app_length. cbn [firstn] in H2. lia. }
  destruct (G 0%nat bl k Hk) as [_ H]. rewrite Nat.sub_0_r in H.
  set (t := snd (nth k (tagged 0 bl) (0%nat,0%nat))) in *.
  assert (M : forall a b, (a <= b)%nat -> (length (concat (firstn a bl)) <= length (concat (firstn b bl)))%nat).
  { clear. intros a b Hab. replace (firstn b bl) with (firstn a bl ++ firstn (b - a) (skipn a bl)).
    - rewrite concat_app, app_length. lia.
    - rewrite <- (firstn_skipn a (firstn b bl)). rewrite firstn_firstn, Nat.min_l by exact Hab. f_equal.
      rewrite firstn_skipn_comm. f_equal. f_equal. lia. }
  split; [intros <-; exact H|]. intros Hk'.
  destruct (lt_eq_lt_dec t i) as [[Hlt|]|Hgt]; [|assumption|].
  - pose proof (M (S t) i ltac:(lia)). lia.
  - pose proof (M (S i) t ltac:(lia)). lia.
Qed.

Lemma brute_ranges dev bl :
  zseg_reduce dev Z.max int32_min (map Z.of_nat (seq 1 (length (tagged 0 bl))))
    (map (fun q => Z.of_nat (snd q)) (tagged 0 bl)) (Z.of_nat (length bl)) =
  Ok (map (fun i => match nth i bl [] with [] => int32_min | _ => nth i (cum_ends 0 bl) 0 end) (seq 0 (length bl))).
Proof.
  unfold zseg_reduce.
  assert (Hchk : (match dev with CPU => negb (forallb (fun i => i <? Z.of_nat (length bl))
      (map (fun q => Z.of_nat (snd q)) (tagged 0 bl))) | GPU => false end) = false).
  { destruct dev; [|reflexivity]. apply negb_false_iff, forallb_forall. intros z Hz.
    apply in_map_iff in Hz as ([j i] & <- & Hin). apply tagged_In in Hin. apply Z.ltb_lt. cbn [snd]. lia. }
  rewrite Hchk, Nat2Z.id. f_equal. apply map_ext_in. intros i Hi. apply in_seq in Hi.
  set (T := tagged 0 bl) in *. set (n := length T).
  assert (E1 : map Z.of_nat (seq 1 n) = map (fun k => Z.of_nat (S k)) (seq 0 n)) by (rewrite <- seq_shift, map_map; reflexivity).
  assert (E2 : map (fun q => Z.of_nat (snd q)) T = map (fun k => Z.of_nat (snd (nth k T (0%nat,0%nat)))) (seq 0 n)).
  { rewrite (nth_map_seq' T (0%nat,0%nat)) at 1. rewrite map_map. reflexivity. }
  rewrite E1, E2, zsegment_seq.
  set (s := length (concat (firstn i bl))). set (e := length (concat (firstn (S i) bl))).
  assert (Lm : (e <= n)%nat).
  { unfold n, T. rewrite tagged_length. unfold e. rewrite <- (firstn_skipn (S i) bl) at 2. rewrite concat_app, app_length. lia. }
  assert (Es : e = (s + length (nth i bl []))%nat).
  { unfold e, s. clear -Hi. destruct Hi as [_ Hi]. cbn in Hi. revert i Hi; induction bl as [|b bl IH]; intros [|i] Hi; cbn in Hi; try lia.
    - cbn. rewrite app_nil_r. reflexivity.
    - change (firstn (S (S i)) (b :: bl)) with (b :: firstn (S i) bl). change (firstn (S i) (b :: bl)) with (b :: firstn i bl).
      cbn [concat nth]. rewrite !app_length. rewrite (IH i) by lia. lia. }
  assert (HIn : forall k, In k (filter (fun k => Z.of_nat (snd (nth k T (0%nat,0%nat))) =? Z.of_nat i) (seq 0 n)) <-> (s <= k < e)%nat).
  { intros k. rewrite filter_In, in_seq, Z.eqb_eq, Nat2Z.inj_iff. split.
    - intros [Hk E]. apply (tagged_nth_snd bl i k); [lia|fold T; lia|exact E].
    - intros Hk. split; [lia|]. apply (tagged_nth_snd bl i k); [lia|fold T; fold n; lia|exact Hk]. }
  set (F := filter _ (seq 0 n)) in *.
  pose proof (fold_max_spec int32_min (map (fun k => Z.of_nat (S k)) F)) as (X1 & X2 & X3).
  set (m := fold_right Z.max int32_min (map (fun k => Z.of_nat (S k)) F)) in *.
  destruct (nth i bl []) as [|x l] eqn:Eb; rewrite ?Eb in Es.
  - destruct X3 as [E|E]; [exact E|]. apply in_map_iff in E as (k & _ & Hk). apply HIn in Hk. cbn [length] in Es. lia.
  - rewrite cum_ends_nth by lia. fold e. cbn [length] in Es.
    assert (Hin : In (e - 1)%nat F) by (apply HIn; lia).
    pose proof (X1 _ (in_map (fun k => Z.of_nat (S k)) _ _ Hin)) as Hge. cbn beta in Hge.
    destruct X3 as [E|E]; [unfold int32_min in E; lia|].
    apply in_map_iff in E as (k & Ek & Hk). apply HIn in Hk. lia.
Qed.

Section Brute.
  Context (rows crows : list point) (ids cids : list nat) (D : nat) (p cp : pc) (r : Q) (dev : device).
  Hypothesis Pp : pts p = rows.
  Hypothesis Pb : bids p = ids.
  Hypothesis Pd : dim p = D.
  Hypothesis Pl : length rows = length ids.
  Hypothesis Pr : Forall (fun r => length r = D) rows.
  Hypothesis Cp : pts cp = crows.
  Hypothesis Cb : bids cp = cids.
  Hypothesis Cd : dim cp = D.
  Hypothesis Cl : length crows = length cids.
  Hypothesis Cr : Forall (fun r => length r = D) crows.
  Hypothesis Hr : (0 <= r)%Q.

  Definition bblocks : list (list nat) :=
    map (fun cb => filter (fun j => norm_le (nth j rows []) (fst cb) r && Nat.eqb (nth j ids 0%nat) (snd cb)) (seq 0 (length rows)))
      (combine crows cids).

  Lemma bblocks_length : length bblocks = length cids.
  Proof using Cl. unfold bblocks. rewrite map_length, combine_length, Cl. apply Nat.min_id. Qed.

  Lemma bblocks_tagged {A} (f : A -> list nat) (l : list A) i :
    concat (map (fun ic => map (fun j => (j, fst ic)) (f (snd ic))) (combine (seq i (length l)) l)) = tagged i (map f l).
  Proof using. revert i; induction l as [|a l IH]; intros i; cbn; [reflexivity|]. now rewrite IH. Qed.

  Lemma brute_ok : find_neighbors_no_grid dev p cp r =
    Ok (Ranges [length cids] (map (fun i => match nth i bblocks [] with [] => int32_min | _ => nth i (cum_ends 0 bblocks) 0 end) (seq 0 (length cids))),
        tagged 0 bblocks).
  Proof using Pp Pb Pd Cp Cb Cd Cl.
    unfold find_neighbors_no_grid. rewrite Cd, Pd, Nat.eqb_refl. cbn [negb]. rewrite Pp, Pb, Cp, Cb.
    set (nbs := concat _).
    assert (En : nbs = tagged 0 bblocks).
    { unfold nbs, bblocks. rewrite <- bblocks_tagged. rewrite combine_length, Cl, Nat.min_id. reflexivity. }
    rewrite En, Cl. rewrite <- bblocks_length. rewrite brute_ranges. reflexivity.
  Qed.

  Lemma bblocks_In j i : In (j, i) (tagged 0 bblocks) <-> within D r rows ids crows cids j i.
  Proof using Pl Pr Cl Cr Hr.
    clear Pp Pb Pd Cp Cb Cd p cp dev. rewrite tagged_In, bblocks_length, Nat.add_0_l, Nat.sub_0_r. unfold within.
    set (f := fun cb : point * nat => filter (fun j => norm_le (nth j rows []) (fst cb) r && Nat.eqb (nth j ids 0%nat) (snd cb)) (seq 0 (length rows))).
    assert (Hn : (i < length cids)%nat -> nth i bblocks [] = f (nth i crows [], nth i cids 0%nat)).
    { intros Hi. rewrite (nth_indep _ [] (f ([], 0%nat))) by (rewrite bblocks_length; exact Hi).
      unfold bblocks. fold f. now rewrite map_nth, combine_nth by exact Cl. }
    assert (Hlr : (j < length ids)%nat -> length (nth j rows []) = D)
      by (intros; rewrite Forall_forall in Pr; apply Pr, nth_In; lia).
    assert (Hlc : (i < length cids)%nat -> length (nth i crows []) = D)
      by (intros; rewrite Forall_forall in Cr; apply Cr, nth_In; lia).
    split.
    - intros [[_ Hi] Hj]. rewrite (Hn Hi) in Hj. unfold f in Hj. cbn [fst snd] in Hj.
      apply filter_In in Hj as [Hj Hc]. apply in_seq in Hj. apply andb_true_iff in Hc as [H1 H2].
      apply Nat.eqb_eq in H2. apply (norm_le_iff D) in H1; auto; [|apply Hlr; lia].
      repeat split; auto; lia.
    - intros (Hj & Hi & Hb & Hd). split; [lia|]. rewrite (Hn Hi). unfold f. cbn [fst snd].
      apply filter_In. split; [apply in_seq; lia|]. apply andb_true_iff. split; [|now apply Nat.eqb_eq].
      apply (norm_le_iff D); auto.
  Qed.

  Lemma bblocks_NoDup : NoDup (tagged 0 bblocks).
  Proof using.
    apply tagged_NoDup, Forall_forall. intros b Hb. apply in_map_iff in Hb as (x & <- & _). apply NoDup_filter, seq_NoDup.
  Qed.
End Brute.
