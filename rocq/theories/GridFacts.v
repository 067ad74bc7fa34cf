(** Facts about the grid model. *)
From Coq Require Import List Arith ZArith QArith Qround Qminmax Lia Lqa Bool Permutation Sorted.
From Verif Require Import Tensor TensorFacts Spec PointCloud SpecCloud History PointCloudFacts QFacts CloudProofs
  Grid SpecGrid.
Import ListNotations.
Local Open Scope nat_scope.

(** * Clouds after any history *)

Lemma step_same dev eps p o : same_data p (step dev eps p o).
Proof.
  assert (Hs : forall p, same_data p (fst (get_sizes p))).
  { clear. intros p. unfold get_sizes. destruct (psizes p); [apply same_data_refl|].
    destruct (unique_with_counts Nat.eqb (bids p)) as [u c].
    destruct (gather c (argsort Nat.leb u)); [|apply same_data_refl].
    destruct (bshape p) as [s|]; [destruct (reshape _ s)|]; repeat split. }
  assert (Hu : forall p m, same_data p (fst (get_unflatten p m))).
  { clear. intros p m. unfold get_unflatten. destruct (unflatten p); repeat split. }
  assert (Ha : forall A (z : A) p u d, same_data p (fst (apply_unflatten z p u d))).
  { intros A z q u d. unfold apply_unflatten. destruct u; [apply same_data_refl|].
    destruct (gather d (sidx q)); [|apply same_data_refl].
    pose proof (Hs q). destruct (get_sizes q). assumption. }
  destruct o as [i|m| |m|d| |s|f|f rs rp]; cbn [step].
  - apply same_data_refl.
  - unfold get_points_all. pose proof (Hu p m). destruct (get_unflatten p m) as [p' u]. cbn [fst] in *.
    eapply same_data_trans; [eassumption|apply Ha].
  - apply Hs.
  - apply Hu.
  - pose proof (Hu p None). destruct (get_unflatten p None) as [p' u]. cbn [fst] in *.
    eapply same_data_trans; [eassumption|apply Ha].
  - unfold get_aabb. destruct (paabb p); [apply same_data_refl|].
    destruct (make_aabb dev eps p); [repeat split|apply same_data_refl].
  - unfold set_batch_shape. destruct s as [s|]; [|repeat split].
    destruct (negb _); [apply same_data_refl|]. cbn [psizes set_shapes].
    destruct (psizes p); [destruct (reshape _ s)|]; repeat split.
  - unfold flatten_features. destruct f; [|apply same_data_refl].
    pose proof (Hs p). destruct (get_sizes p). assumption.
  - unfold format_output. destruct rp.
    + pose proof (Hu p None). destruct (get_unflatten p None) as [p' u]. cbn [fst] in *.
      pose proof (Ha point (zero_point (dim p)) p' u f). destruct (apply_unflatten _ p' u f).
      eapply same_data_trans; eassumption.
    + destruct rs; apply same_data_refl.
Qed.

Lemma step_paabb dev eps p o :
  paabb (step dev eps p o) = paabb p \/
  (paabb p = None /\ exists a, make_aabb dev eps p = Ok a /\ paabb (step dev eps p o) = Some a).
Proof.
  destruct o as [i|m| |m|d| |s|f|f rs rp]; cbn [step].
  - now left.
  - left. unfold get_points_all. pose proof (paabb_unflatten p m). destruct (get_unflatten p m) as [p' u].
    cbn [fst] in *. now rewrite paabb_apply.
  - left. apply paabb_get_sizes.
  - left. apply paabb_unflatten.
  - left. pose proof (paabb_unflatten p None). destruct (get_unflatten p None) as [p' u].
    cbn [fst] in *. now rewrite paabb_apply.
  - unfold get_aabb. destruct (paabb p) eqn:E; [now left|].
    destruct (make_aabb dev eps p) as [a|] eqn:Em; [right|now left].
    split; [reflexivity|]. exists a. split; reflexivity.
  - left. unfold set_batch_shape. destruct s as [s|]; [|reflexivity].
    destruct (negb _); [reflexivity|]. cbn [psizes set_shapes].
    destruct (psizes p); [destruct (reshape _ s)|]; reflexivity.
  - left. unfold flatten_features. destruct f; [|reflexivity].
    pose proof (paabb_get_sizes p). destruct (get_sizes p). assumption.
  - left. unfold format_output. destruct rp.
    + pose proof (paabb_unflatten p None). destruct (get_unflatten p None) as [p' u].
      cbn [fst] in *. pose proof (paabb_apply (zero_point (dim p)) p' u f).
      destruct (apply_unflatten _ p' u f). cbn [fst] in *. congruence.
    + destruct rs; reflexivity.
Qed.

Lemma init_paabb pa ia bs sz p : init pa ia bs sz = Ok p -> paabb p = None.
Proof.
  unfold init. destruct (check_valid_point_cloud_input pa sz ia); cbn; [|discriminate].
  destruct pa as [n|D rows|D t]; [discriminate| |].
  - unfold init_from_segmented. destruct ia as [l|].
    + destruct bs; [|destruct l]; intros H; inversion H; reflexivity.
    + destruct sz as [s|]; [|discriminate]. destruct (1 <? length (ishape s)); [discriminate|].
      destruct (tf_repeat _ _); cbn; intros H; inversion H; reflexivity.
  - unfold init_from_padded. destruct (negb _); [discriminate|].
    destruct (flatten_batch_to_2d _ _); cbn; [|discriminate].
    destruct (tf_repeat _ _); cbn; intros H; inversion H; reflexivity.
Qed.

(** Box corners as functions of the batch. *)
Definition lo_of (eps : Q) (D : nat) (rows : list point) (ids : list nat) (b : nat) : point :=
  map (fun x => x - eps)%Q (red_min D (element b rows ids)).
Definition hi_of (eps : Q) (D : nat) (rows : list point) (ids : list nat) (b : nat) : point :=
  map (fun x => x + eps)%Q (red_max D (element b rows ids)).

Lemma make_aabb_data dev eps p :
  length (pts p) = length (bids p) -> Forall (fun b => b < bsize p) (bids p) ->
  make_aabb dev eps p = Ok (AABB (map (lo_of eps (dim p) (pts p) (bids p)) (seq 0 (bsize p)))
                                 (map (hi_of eps (dim p) (pts p) (bids p)) (seq 0 (bsize p))) (bshape p)).
Proof.
  intros Hl HB. unfold make_aabb, unsorted_segment.
  rewrite Hl, Nat.eqb_refl. cbn [negb].
  assert (Hd : (match dev with CPU => negb (forallb (fun i => i <? bsize p) (bids p)) | GPU => false end) = false).
  { destruct dev; [|reflexivity]. apply negb_false_iff, forallb_forall. intros i Hi.
    rewrite Forall_forall in HB. apply Nat.ltb_lt. now apply HB. }
  rewrite Hd. cbn [bind]. rewrite !map_map. reflexivity.
Qed.

Record is_cloud (dev : device) (eps : Q) (D : nat) (rows : list point) (ids : list nat) (B : nat) (p : pc) : Prop := {
  ic_pts : pts p = rows;
  ic_bids : bids p = ids;
  ic_bsize : bsize p = B;
  ic_dim : dim p = D;
  ic_len : length rows = length ids;
  ic_ids : Forall (fun b => b < B) ids;
  ic_rows : Forall (fun r => length r = D) rows;
  ic_box : forall a, paabb p = Some a ->
    amin a = map (lo_of eps D rows ids) (seq 0 B) /\ amax a = map (hi_of eps D rows ids) (seq 0 B) }.

Lemma is_cloud_step dev eps D rows ids B p o :
  is_cloud dev eps D rows ids B p -> is_cloud dev eps D rows ids B (step dev eps p o).
Proof.
  intros [H1 H2 H3 H4 H5 H6 H7 H8].
  pose proof (step_same dev eps p o) as (S1&S2&S3&S4&S5).
  constructor; try congruence; auto.
  intros a Ha. destruct (step_paabb dev eps p o) as [E|(En & a' & Em & Es)].
  - apply H8. congruence.
  - assert (a' = a) by congruence. subst a'.
    rewrite make_aabb_data in Em by (rewrite ?H1, ?H2, ?H3; assumption).
    rewrite H1, H2, H3, H4 in Em. inversion Em. now split.
Qed.

Lemma cloud_is dev eps D rows ids B p :
  cloud dev eps D rows ids B p -> is_cloud dev eps D rows ids B p.
Proof.
  intros H; induction H as [pa ia bs sz p Hi H1 H2 H3 H4 H5 H6 H7|p o Hc IH].
  - constructor; auto. intros a Ha. rewrite (init_paabb _ _ _ _ _ Hi) in Ha. discriminate.
  - now apply is_cloud_step.
Qed.

Lemma get_aabb_cloud dev eps D rows ids B p :
  is_cloud dev eps D rows ids B p ->
  exists p' a, get_aabb dev eps p = (p', Ok a) /\ is_cloud dev eps D rows ids B p' /\
    amin a = map (lo_of eps D rows ids) (seq 0 B) /\ amax a = map (hi_of eps D rows ids) (seq 0 B).
Proof.
  intros H. pose proof H as [H1 H2 H3 H4 H5 H6 H7 H8]. unfold get_aabb.
  destruct (paabb p) as [a|] eqn:E.
  - exists p, a. split; [reflexivity|]. split; [exact H|]. now apply H8.
  - rewrite make_aabb_data by (rewrite ?H1, ?H2, ?H3; assumption).
    eexists. eexists. split; [reflexivity|]. cbn [amin amax]. rewrite H1, H2, H3, H4.
    split; [|now split]. constructor; cbn; auto.
    intros a Ha. inversion Ha. cbn. now split.
Qed.

(** The fresh cloud a caller gets after calling get_AABB is still a cloud in
    the sense of the specification. *)
Lemma cloud_aabb dev eps D rows ids B p :
  cloud dev eps D rows ids B p -> cloud dev eps D rows ids B (fst (get_aabb dev eps p)).
Proof. intros H. exact (cloud_call _ _ _ _ _ _ p OpAABB H). Qed.

(** * Corners *)

Section Corners.
  Context (eps : Q) (D : nat) (rows : list point) (ids : list nat).
  Hypothesis Hlen : length rows = length ids.

  Lemma lo_length b : length (lo_of eps D rows ids b) = D.
  Proof. unfold lo_of. now rewrite map_length, red_min_length. Qed.
  Lemma hi_length b : length (hi_of eps D rows ids b) = D.
  Proof. unfold hi_of. now rewrite map_length, red_max_length. Qed.

  Lemma lo_le b i d : d < D -> i < length ids -> nth i ids 0 = b ->
    (coord (lo_of eps D rows ids b) d <= xc rows i d - eps)%Q.
  Proof.
    intros Hd Hi Hb. unfold lo_of. rewrite coord_map by now rewrite red_min_length.
    assert (Hin : In (nth i rows []) (element b rows ids)) by now apply element_In.
    pose proof (red_min_le D _ d _ Hd Hin). unfold xc. unfold coord at 2 in H. lra.
  Qed.

  Lemma hi_ge b i d : d < D -> i < length ids -> nth i ids 0 = b ->
    (xc rows i d + eps <= coord (hi_of eps D rows ids b) d)%Q.
  Proof.
    intros Hd Hi Hb. unfold hi_of. rewrite coord_map by now rewrite red_max_length.
    assert (Hin : In (nth i rows []) (element b rows ids)) by now apply element_In.
    pose proof (red_max_ge D _ d _ Hd Hin). unfold xc. unfold coord at 1 in H. lra.
  Qed.

  Lemma element_nonempty b : In b ids -> element b rows ids <> [].
  Proof.
    intros Hb Hn. apply (f_equal (@length _)) in Hn. rewrite element_length in Hn by exact Hlen.
    apply (count_occ_In Nat.eq_dec) in Hb. cbn in Hn. lia.
  Qed.

  Lemma lo_attained b d : d < D -> In b ids ->
    exists i, i < length ids /\ nth i ids 0 = b /\ (coord (lo_of eps D rows ids b) d == xc rows i d - eps)%Q.
  Proof.
    intros Hd Hb. destruct (red_min_attained D _ d Hd (element_nonempty b Hb)) as (r & Hr & Er).
    destruct (element_In_inv b rows ids r [] Hlen Hr) as (i & Hi & Hbi & <-).
    exists i. split; [exact Hi|]. split; [exact Hbi|]. unfold lo_of.
    rewrite coord_map by now rewrite red_min_length. unfold xc. unfold coord at 2 in Er. lra.
  Qed.

  Lemma hi_attained b d : d < D -> In b ids ->
    exists i, i < length ids /\ nth i ids 0 = b /\ (coord (hi_of eps D rows ids b) d == xc rows i d + eps)%Q.
  Proof.
    intros Hd Hb. destruct (red_max_attained D _ d Hd (element_nonempty b Hb)) as (r & Hr & Er).
    destruct (element_In_inv b rows ids r [] Hlen Hr) as (i & Hi & Hbi & <-).
    exists i. split; [exact Hi|]. split; [exact Hbi|]. unfold hi_of.
    rewrite coord_map by now rewrite red_max_length. unfold xc. unfold coord at 2 in Er. lra.
  Qed.

  Lemma lo_corner b : In b ids -> lower_corner D eps rows ids b (lo_of eps D rows ids b).
  Proof.
    intros Hb d Hd. split.
    - intros i Hi Hbi. now apply lo_le.
    - destruct (lo_attained b d Hd Hb) as (i & Hi & Hbi & E). exists i. auto.
  Qed.

  (** Empty elements get inverted boxes. *)
  Lemma empty_box b d : d < D -> ~ In b ids ->
    (coord (hi_of eps D rows ids b) d - coord (lo_of eps D rows ids b) d == (2#1) * eps - (2#1) * flt_max)%Q.
  Proof.
    intros Hd Hb.
    assert (E : element b rows ids = []).
    { unfold element. rewrite filter_none; [reflexivity|]. intros [x c] Hin. cbn.
      apply in_combine_r in Hin. apply Nat.eqb_neq. intros ->. contradiction. }
    unfold lo_of, hi_of. rewrite !coord_map by (rewrite ?red_min_length, ?red_max_length; exact Hd).
    rewrite E. unfold red_min, red_max, coord. rewrite !nth_map_seq by exact Hd. cbn [map]. lra.
  Qed.
End Corners.

(** * Floor and ceiling *)

Lemma Qfloor_lt_iff x (n : Z) : (Qfloor x < n)%Z <-> (x < inject_Z n)%Q.
Proof.
  split; intros H.
  - pose proof (Qlt_floor x) as Hf. assert (Hz : (Qfloor x + 1 <= n)%Z) by lia.
    eapply Qlt_le_trans; [exact Hf|]. now rewrite <- Zle_Qle.
  - pose proof (Qfloor_le x). rewrite Zlt_Qlt. eapply Qle_lt_trans; eassumption.
Qed.

Lemma Qfloor_ge_iff x (n : Z) : (n <= Qfloor x)%Z <-> (inject_Z n <= x)%Q.
Proof.
  split; intros H.
  - rewrite Zle_Qle in H. eapply Qle_trans; [exact H|apply Qfloor_le].
  - rewrite <- (Qfloor_Z n). now apply Qfloor_resp_le.
Qed.

Lemma Qceiling_le_iff x (n : Z) : (Qceiling x <= n)%Z <-> (x <= inject_Z n)%Q.
Proof.
  split; intros H.
  - rewrite Zle_Qle in H. eapply Qle_trans; [apply Qle_ceiling|exact H].
  - rewrite <- (Qceiling_Z n). now apply Qceiling_resp_le.
Qed.

Lemma div_le_iff a c q : (0 < c)%Q -> (a / c <= q <-> a <= q * c)%Q.
Proof.
  intros H. split; intros Hq.
  - apply (Qmult_le_compat_r _ _ c) in Hq; [|lra]. rewrite Qmult_comm, Qmult_div_r in Hq by lra. exact Hq.
  - apply Qle_shift_div_r; assumption.
Qed.
Lemma div_lt_iff a c q : (0 < c)%Q -> (a / c < q <-> a < q * c)%Q.
Proof.
  intros H. split; intros Hq.
  - apply (Qmult_lt_r _ _ c H) in Hq. rewrite Qmult_comm, Qmult_div_r in Hq by lra. exact Hq.
  - apply Qlt_shift_div_r; assumption.
Qed.
Lemma div_ge_iff a c q : (0 < c)%Q -> (q <= a / c <-> q * c <= a)%Q.
Proof.
  intros H. split; intros Hq.
  - apply (Qmult_le_compat_r _ _ c) in Hq; [|lra]. rewrite (Qmult_comm (a / c)), Qmult_div_r in Hq by lra. exact Hq.
  - apply Qle_shift_div_l; assumption.
Qed.

(** * Number of cells *)

Lemma fold_max_le l e n : (fold_right Z.max e l <= n)%Z <-> (e <= n /\ forall x, In x l -> x <= n)%Z.
Proof.
  induction l as [|y l IH]; cbn.
  - split; [intros H; split; [exact H|intros ? []]|tauto].
  - rewrite Z.max_lub_iff, IH. split.
    + intros (H1 & H2 & H3). split; [exact H2|]. intros x [->|Hx]; auto.
    + intros (H1 & H2). auto.
Qed.

Lemma combine_map_map {A B C} (f : A -> B) (g : A -> C) l :
  combine (map f l) (map g l) = map (fun x => (f x, g x)) l.
Proof. induction l as [|a l IH]; [reflexivity|]. cbn. now rewrite IH. Qed.

Section NumCells.
  Context (eps : Q) (D : nat) (rows : list point) (ids : list nat) (B : nat) (cells : point) (a : aabb).
  Hypothesis Hlen : length rows = length ids.
  Hypothesis HB : Forall (fun b => b < B) ids.
  Hypothesis Heps : (0 <= eps)%Q.
  Hypothesis Hcells : forall d, d < D -> (0 < coord cells d)%Q.
  Hypothesis Hmin : amin a = map (lo_of eps D rows ids) (seq 0 B).
  Hypothesis Hmax : amax a = map (hi_of eps D rows ids) (seq 0 B).

  Lemma num_cells_length : length (num_cells D a cells) = D.
  Proof. unfold num_cells. now rewrite map_length, seq_length. Qed.

  Lemma num_cells_le d n : d < D ->
    (nth d (num_cells D a cells) 0 <= n <->
     1 <= n /\ (int32_min <= n) /\ forall b, (b < B)%nat ->
       (coord (hi_of eps D rows ids b) d - coord (lo_of eps D rows ids b) d <= inject_Z n * coord cells d)%Q)%Z.
  Proof.
    intros Hd. unfold num_cells. rewrite nth_map_seq by exact Hd.
    rewrite Z.max_lub_iff, fold_max_le, Hmin, Hmax, combine_map_map, map_map. cbn [fst snd].
    split.
    - intros [[H1 H2] H3]. split; [exact H3|]. split; [exact H1|]. intros b Hb.
      apply div_le_iff; [now apply Hcells|]. apply Qceiling_le_iff. apply H2.
      apply in_map_iff. exists b. split; [reflexivity|]. apply in_seq. lia.
    - intros (H1 & H2 & H3). split; [split; [exact H2|]|exact H1].
      intros x Hx. apply in_map_iff in Hx as (b & <- & Hb). apply in_seq in Hb.
      apply Qceiling_le_iff. apply div_le_iff; [now apply Hcells|]. apply H3. lia.
  Qed.

  Lemma num_cells_pos d : d < D -> (1 <= nth d (num_cells D a cells) 0)%Z.
  Proof. intros Hd. apply (num_cells_le d (nth d (num_cells D a cells) 0%Z)); [exact Hd|lia]. Qed.

  Lemma num_cells_needed d : d < D -> (eps <= flt_max)%Q ->
    cells_needed eps cells rows ids d (nth d (num_cells D a cells) 0%Z).
  Proof.
    intros Hd Hfl. unfold cells_needed. cbv zeta.
    assert (Hiff : forall n, (nth d (num_cells D a cells) 0 <= n)%Z <->
      (1 <= n)%Z /\ forall i j, i < length ids -> j < length ids -> nth i ids 0 = nth j ids 0 ->
      (xc rows i d - xc rows j d + (2 # 1) * eps <= inject_Z n * nth d cells 0)%Q).
    { intros n. rewrite (num_cells_le d n Hd). split.
      - intros (H1 & _ & H). split; [exact H1|]. intros i j Hi Hj E.
        assert (Hb : nth i ids 0 < B) by (rewrite Forall_forall in HB; apply HB, nth_In; exact Hi).
        specialize (H _ Hb).
        pose proof (hi_ge eps D rows ids Hlen _ i d Hd Hi eq_refl).
        pose proof (lo_le eps D rows ids Hlen _ j d Hd Hj (eq_sym E)). unfold coord in *. lra.
      - intros (H1 & H). split; [exact H1|]. split; [unfold int32_min; lia|]. intros b Hb.
        destruct (in_dec Nat.eq_dec b ids) as [Hin|Hin].
        + destruct (hi_attained eps D rows ids Hlen b d Hd Hin) as (i & Hi & Hbi & Ei).
          destruct (lo_attained eps D rows ids Hlen b d Hd Hin) as (j & Hj & Hbj & Ej).
          specialize (H i j Hi Hj ltac:(congruence)). unfold coord in *. lra.
        + pose proof (empty_box eps D rows ids b d Hd Hin) as E.
          assert (0 <= inject_Z n * coord cells d)%Q; [|lra].
          apply Qmult_le_0_compat; [|specialize (Hcells d Hd); lra].
          change 0%Q with (inject_Z 0). rewrite <- Zle_Qle. lia. }
    split; [apply Hiff; lia|]. intros m Hm. now apply Hiff.
  Qed.

  (** Points lie in the grid. *)
  Lemma raw_nonneg i d : d < D -> i < length ids ->
    (0 <= raw_cell (lo_of eps D rows ids (nth i ids 0%nat)) cells (nth i rows []) d)%Z.
  Proof.
    intros Hd Hi. apply Qfloor_ge_iff, div_ge_iff; [now apply Hcells|].
    pose proof (lo_le eps D rows ids Hlen _ i d Hd Hi eq_refl). unfold xc, coord in *.
    change (inject_Z 0) with 0%Q. lra.
  Qed.

  Lemma raw_in i d : d < D -> i < length ids -> fits eps D cells rows ids ->
    (raw_cell (lo_of eps D rows ids (nth i ids 0%nat)) cells (nth i rows []) d < nth d (num_cells D a cells) 0)%Z.
  Proof.
    intros Hd Hi Hfit. apply Qfloor_lt_iff. apply div_lt_iff; [now apply Hcells|].
    set (n := nth d (num_cells D a cells) 0%Z).
    assert (Hn : (n <= n)%Z) by lia. pose proof (num_cells_pos d Hd) as Hpos. fold n in Hpos.
    apply (num_cells_le d n Hd) in Hn as (_ & _ & Hc).
    set (b := nth i ids 0) in *.
    assert (Hb : b < B) by (rewrite Forall_forall in HB; apply HB, nth_In; exact Hi).
    pose proof (Hc b Hb) as Hcb.
    pose proof (hi_ge eps D rows ids Hlen b i d Hd Hi eq_refl) as Hh.
    destruct Hfit as [He|[He Hno]]; [unfold xc, coord in *; lra|].
    destruct (Qlt_le_dec (coord (nth i rows []) d - coord (lo_of eps D rows ids b) d) (inject_Z n * coord cells d))
      as [Hlt|Hge]; [exact Hlt|]. exfalso. apply Hno.
    destruct (lo_attained eps D rows ids Hlen b d Hd) as (j & Hj & Hbj & Ej); [now apply nth_In|].
    exists i, j, d, n. split; [exact Hi|]. split; [exact Hj|]. split; [symmetry; exact Hbj|].
    split; [exact Hd|]. split; [lia|]. split.
    - unfold xc, coord in *. lra.
    - intros i' j' Hi' Hj' E.
      assert (Hb' : nth i' ids 0 < B) by (rewrite Forall_forall in HB; apply HB, nth_In; exact Hi').
      pose proof (Hc _ Hb') as Hc'.
      pose proof (hi_ge eps D rows ids Hlen _ i' d Hd Hi' eq_refl).
      pose proof (lo_le eps D rows ids Hlen _ j' d Hd Hj' (eq_sym E)). unfold xc, coord in *. lra.
  Qed.
End NumCells.

(** * Mixed radix keys *)

Local Open Scope Z_scope.

Fixpoint radix (nc cs : list Z) : Z :=
  match nc, cs with
  | _ :: nc', c :: cs' => c * zprod nc' + radix nc' cs'
  | _, _ => 0
  end.

Definition in_cells (nc cs : list Z) : Prop := Forall2 (fun n c => 0 <= c < n) nc cs.

Lemma zprod_cons n l : zprod (n :: l) = n * zprod l.
Proof. reflexivity. Qed.

Lemma radix_range nc cs : in_cells nc cs -> 0 <= radix nc cs < zprod nc.
Proof.
  intros H; induction H as [|n c nc cs Hc H IH]; [cbn; lia|].
  cbn [radix]. rewrite zprod_cons. nia.
Qed.

Lemma radix_inj nc cs cs' : in_cells nc cs -> in_cells nc cs' -> radix nc cs = radix nc cs' -> cs = cs'.
Proof.
  intros H; revert cs'; induction H as [|n c nc cs Hc H IH]; intros cs' H' E.
  - now inversion H'.
  - inversion H' as [|? c' ? cs2 Hc' H2]; subst. cbn [radix] in E.
    pose proof (radix_range nc cs H). pose proof (radix_range nc cs2 H2).
    assert (c = c') by nia. subst c'. f_equal. apply IH; [exact H2|lia].
Qed.

Lemma mult_nth nc k : (k <= length nc)%nat -> nth k (cumprod_rev nc ++ [1]) 0 = zprod (skipn k nc).
Proof.
  intros H. assert (L : length (cumprod_rev nc) = length nc) by (unfold cumprod_rev; now rewrite map_length, seq_length).
  destruct (Nat.eq_dec k (length nc)) as [->|Hne].
  - rewrite app_nth2 by lia. rewrite L, Nat.sub_diag. now rewrite skipn_all.
  - rewrite app_nth1 by lia. unfold cumprod_rev. now rewrite nth_map_seq by lia.
Qed.

Lemma radix_sum nc cs : length cs = length nc ->
  zsum (map (fun d => nth d cs 0 * zprod (skipn (S d) nc)) (seq 0 (length nc))) = radix nc cs.
Proof.
  revert cs; induction nc as [|n nc IH]; intros [|c cs] H; cbn in H; try lia; [reflexivity|].
  cbn [length seq map]. rewrite <- seq_shift, map_map. cbn [zsum fold_right].
  cbn [radix]. change (fold_right Z.add 0 ?l) with (zsum l). rewrite <- (IH cs) by lia. reflexivity.
Qed.

Lemma key_of_unwrapped nc b cs : length cs = length nc ->
  key_of nc b cs = wrap32 (Z.of_nat b * zprod nc + radix nc cs).
Proof.
  intros H. unfold key_of. f_equal. rewrite mult_nth by lia. cbn [skipn]. f_equal.
  rewrite <- (radix_sum nc cs H). f_equal. apply map_ext_in. intros d Hd. apply in_seq in Hd.
  now rewrite mult_nth by lia.
Qed.

Lemma wrap32_id z : - 2 ^ 31 <= z < 2 ^ 31 -> wrap32 z = z.
Proof. intros H. unfold wrap32. rewrite Z.mod_small; lia. Qed.

Lemma zprod_pos l : (forall x, In x l -> 1 <= x) -> 1 <= zprod l.
Proof.
  induction l as [|x l IH]; intros H; [cbn; lia|]. rewrite zprod_cons.
  assert (1 <= x) by (apply H; now left). assert (1 <= zprod l) by (apply IH; intros; apply H; now right). nia.
Qed.

(** * The grid object *)

Lemma desc_total a b : (b <=? a) = true \/ (a <=? b) = true.
Proof. destruct (Z.leb_spec b a); [now left|right; apply Z.leb_le; lia]. Qed.
Lemma desc_trans a b c : (b <=? a) = true -> (c <=? b) = true -> (c <=? a) = true.
Proof. rewrite !Z.leb_le. lia. Qed.

Definition lo_at eps D rows ids (i : nat) : point := lo_of eps D rows ids (nth i ids 0%nat).

Record is_grid (dev : device) (eps : Q) (D : nat) (rows : list point) (ids : list nat) (B : nat)
  (cells : point) (g : grid) : Prop := {
  ig_cloud : is_cloud dev eps D rows ids B (gcloud g);
  ig_cells : gcells g = cells;
  ig_cells_len : length cells = D;
  ig_cells_pos : forall d, (d < D)%nat -> (0 < coord cells d)%Q;
  ig_min : amin (gbox g) = map (lo_of eps D rows ids) (seq 0 B);
  ig_max : amax (gbox g) = map (hi_of eps D rows ids) (seq 0 B);
  ig_nc : gnc g = num_cells D (gbox g) cells;
  ig_keys : gkeys g = map (fun i => key_of (gnc g) (nth i ids 0%nat)
      (cell_ind D (lo_at eps D rows ids i) cells (gnc g) (nth i rows []))) (seq 0 (length ids));
  ig_sidx : gsidx g = argsort_desc (gkeys g);
  ig_skeys : gskeys g = map (fun i => nth i (gkeys g) 0) (gsidx g);
  ig_spts : gspts g = map (fun i => nth i rows []) (gsidx g);
  ig_sbids : gsbids g = map (fun i => nth i ids 0%nat) (gsidx g);
  ig_ds : forall d, gds g = Some d -> build_grid_ds dev (gskeys g) (gnc g) B = Ok d }.

Lemma valid_sizes_pos D cs : valid_sizes D cs ->
  length (bcast D cs) = D /\ (forall d, (d < D)%nat -> (0 < coord (bcast D cs) d)%Q).
Proof.
  intros [H1 H2]. change (all_dims D cs) with (bcast D cs) in *. split; [exact H1|].
  intros d Hd. rewrite Forall_forall in H2. apply H2. unfold coord. apply nth_In. lia.
Qed.

Lemma mk_grid_ok dev eps D rows ids B p cs :
  is_cloud dev eps D rows ids B p -> valid_sizes D cs ->
  exists g, mk_grid dev eps p cs = Ok g /\ is_grid dev eps D rows ids B (bcast D cs) g /\ gds g = None.
Proof.
  intros Hc Hv. pose proof (valid_sizes_pos D cs Hv) as [Hl Hp]. destruct Hv as [_ HF].
  unfold mk_grid. rewrite (ic_dim _ _ _ _ _ _ _ Hc).
  destruct (get_aabb_cloud dev eps D rows ids B p Hc) as (p' & a & E & Hc' & Hmin & Hmax).
  rewrite E. cbn [bind]. rewrite Hl, Nat.eqb_refl. cbn [negb].
  assert (Hpos : forallb (fun c => negb (Qle_bool c 0)) (bcast D cs) = true).
  { apply forallb_forall. intros c Hcin. rewrite Forall_forall in HF. specialize (HF c Hcin).
    apply negb_true_iff. apply not_true_is_false. rewrite Qle_bool_iff. lra. }
  rewrite Hpos. cbn [negb].
  pose proof Hc' as [H1 H2 H3 H4 H5 H6 H7 H8]. rewrite H1, H2.
  set (nc := num_cells D a (bcast D cs)).
  unfold compute_keys. rewrite Hmin.
  rewrite (gather_map _ _ []) by (rewrite map_length, seq_length; exact H6). cbn [bind].
  set (keys := map _ (combine (combine rows _) ids)).
  assert (Hk : keys = map (fun i => key_of nc (nth i ids 0%nat)
      (cell_ind D (lo_at eps D rows ids i) (bcast D cs) nc (nth i rows []))) (seq 0 (length ids))).
  { unfold keys.
    assert (Ll : length (map (fun i => nth i (map (lo_of eps D rows ids) (seq 0 B)) []) ids) = length rows)
      by (rewrite map_length; lia).
    rewrite (combine_nth_seq _ ids ([],[]) 0%nat) by (rewrite combine_length, Ll; lia).
    rewrite combine_length, Ll, Nat.min_id, H5, map_map. apply map_ext_in. intros i Hi. apply in_seq in Hi.
    cbn [fst snd]. rewrite combine_nth by now symmetry. cbn [fst snd].
    assert (Hb : (nth i ids 0 < B)%nat) by (rewrite Forall_forall in H6; apply H6, nth_In; lia).
    rewrite (nth_indep _ [] (nth 0 (map (lo_of eps D rows ids) (seq 0 B)) [])) by (rewrite map_length; lia).
    rewrite (map_nth (fun i => nth i (map (lo_of eps D rows ids) (seq 0 B)) [])).
    rewrite nth_map_seq by exact Hb. reflexivity. }
  assert (Lk : length keys = length ids) by (rewrite Hk, map_length, seq_length; reflexivity).
  pose proof (argsort_lt (fun a b => b <=? a) keys) as Hlt. fold (argsort_desc keys) in Hlt.
  rewrite (gather_map keys _ 0) by exact Hlt. cbn [bind].
  rewrite (gather_map rows _ []) by (rewrite H5, <- Lk; exact Hlt). cbn [bind].
  rewrite (gather_map ids _ 0%nat) by (rewrite <- Lk; exact Hlt). cbn [bind].
  eexists. split; [reflexivity|]. split; [|reflexivity].
  constructor; cbn; auto. intros d Hd. discriminate.
Qed.

Section GridObj.
  Context (dev : device) (eps : Q) (D : nat) (rows : list point) (ids : list nat) (B : nat)
          (cells : point) (g : grid).
  Hypothesis Heps : (0 <= eps)%Q.
  Hypothesis G : is_grid dev eps D rows ids B cells g.
  Let N := length ids.
  Let nc := gnc g.

  Lemma g_len : length rows = N.
  Proof. exact (ic_len _ _ _ _ _ _ _ (ig_cloud _ _ _ _ _ _ _ _ G)). Qed.
  Lemma g_idsB : Forall (fun b => (b < B)%nat) ids.
  Proof. exact (ic_ids _ _ _ _ _ _ _ (ig_cloud _ _ _ _ _ _ _ _ G)). Qed.
  Lemma g_id_lt i : (i < N)%nat -> (nth i ids 0 < B)%nat.
  Proof. intros H. pose proof g_idsB as HF. rewrite Forall_forall in HF. apply HF, nth_In, H. Qed.

  Lemma nc_length : length nc = D.
  Proof. unfold nc. rewrite (ig_nc _ _ _ _ _ _ _ _ G). apply num_cells_length. Qed.

  Lemma nc_pos d : (d < D)%nat -> 1 <= nth d nc 0.
  Proof.
    intros Hd. unfold nc. rewrite (ig_nc _ _ _ _ _ _ _ _ G).
    eapply num_cells_pos; first [exact Hd | apply g_len | apply g_idsB | exact Heps | exact (ig_min _ _ _ _ _ _ _ _ G)
        | exact (ig_max _ _ _ _ _ _ _ _ G) | exact (ig_cells_pos _ _ _ _ _ _ _ _ G)].
  Qed.

  Lemma nc_pos_all x : In x nc -> 1 <= x.
  Proof.
    intros H. apply (In_nth _ _ 0) in H as (d & Hd & <-). apply nc_pos. now rewrite <- nc_length.
  Qed.

  Lemma keys_length : length (gkeys g) = N.
  Proof. rewrite (ig_keys _ _ _ _ _ _ _ _ G), map_length, seq_length. reflexivity. Qed.

  Lemma sidx_perm : Permutation (gsidx g) (seq 0 N).
  Proof.
    rewrite (ig_sidx _ _ _ _ _ _ _ _ G). unfold argsort_desc. rewrite <- keys_length. apply argsort_perm.
  Qed.
  Lemma sidx_length : length (gsidx g) = N.
  Proof. rewrite (Permutation_length sidx_perm). apply seq_length. Qed.
  Lemma sidx_lt j : (j < N)%nat -> (nth j (gsidx g) 0 < N)%nat.
  Proof.
    intros H. assert (Hin : In (nth j (gsidx g) 0%nat) (gsidx g)) by (apply nth_In; rewrite sidx_length; exact H).
    apply (Permutation_in _ sidx_perm) in Hin. apply in_seq in Hin. lia.
  Qed.
  Lemma sidx_NoDup : NoDup (gsidx g).
  Proof. eapply Permutation_NoDup; [symmetry; apply sidx_perm|apply seq_NoDup]. Qed.

  Lemma skeys_length : length (gskeys g) = N.
  Proof. rewrite (ig_skeys _ _ _ _ _ _ _ _ G), map_length. apply sidx_length. Qed.
  Lemma spts_length : length (gspts g) = N.
  Proof. rewrite (ig_spts _ _ _ _ _ _ _ _ G), map_length. apply sidx_length. Qed.
  Lemma sbids_length : length (gsbids g) = N.
  Proof. rewrite (ig_sbids _ _ _ _ _ _ _ _ G), map_length. apply sidx_length. Qed.

  Lemma map_sidx {A} (f : nat -> A) (e : A) j : (j < N)%nat ->
    nth j (map f (gsidx g)) e = f (nth j (gsidx g) 0%nat).
  Proof.
    intros H. rewrite (nth_indep _ e (f 0%nat)) by (rewrite map_length, sidx_length; exact H).
    now rewrite map_nth.
  Qed.
  Lemma skeys_nth j : (j < N)%nat -> nth j (gskeys g) 0 = nth (nth j (gsidx g) 0%nat) (gkeys g) 0.
  Proof. intros H. rewrite (ig_skeys _ _ _ _ _ _ _ _ G). now rewrite map_sidx. Qed.
  Lemma spts_nth j : (j < N)%nat -> nth j (gspts g) [] = nth (nth j (gsidx g) 0%nat) rows [].
  Proof. intros H. rewrite (ig_spts _ _ _ _ _ _ _ _ G). now rewrite map_sidx. Qed.
  Lemma sbids_nth j : (j < N)%nat -> nth j (gsbids g) 0%nat = nth (nth j (gsidx g) 0%nat) ids 0%nat.
  Proof. intros H. rewrite (ig_sbids _ _ _ _ _ _ _ _ G). now rewrite map_sidx. Qed.

  (** Descending, ties in original order. *)
  Lemma sidx_sorted j k : (j < k)%nat -> (k < N)%nat ->
    nth k (gskeys g) 0 <= nth j (gskeys g) 0 /\
    (nth k (gskeys g) 0 = nth j (gskeys g) 0 -> (nth j (gsidx g) 0 < nth k (gsidx g) 0)%nat).
  Proof.
    intros Hjk Hk. rewrite !skeys_nth by lia. rewrite (ig_sidx _ _ _ _ _ _ _ _ G).
    pose proof (argsort_sorted (fun a b => b <=? a) 0 desc_total desc_trans (gkeys g)) as HS.
    assert (Hk' : (k < length (argsort_desc (gkeys g)))%nat)
      by (unfold argsort_desc; rewrite argsort_length, keys_length; exact Hk).
    pose proof (StronglySorted_nth _ _ j k 0%nat HS Hjk Hk') as [H1 H2].
    fold (argsort_desc (gkeys g)) in *. apply Z.leb_le in H1. split; [exact H1|].
    intros E. apply H2. apply Z.leb_le. lia.
  Qed.

  (** ** Keys under the no-boundary, no-overflow assumptions *)
  Definition cell_at (i d : nat) : Z := raw_cell (lo_at eps D rows ids i) cells (nth i rows []) d.

  Hypothesis Hfit : fits eps D cells rows ids.

  Lemma cell_at_range i d : (i < N)%nat -> (d < D)%nat -> 0 <= cell_at i d < nth d nc 0.
  Proof.
    intros Hi Hd. unfold cell_at, lo_at. split.
    - apply raw_nonneg; auto; [apply g_len|exact (ig_cells_pos _ _ _ _ _ _ _ _ G)].
    - unfold nc. rewrite (ig_nc _ _ _ _ _ _ _ _ G).
      eapply raw_in; eauto; first [apply g_len | apply g_idsB | exact (ig_min _ _ _ _ _ _ _ _ G)
        | exact (ig_max _ _ _ _ _ _ _ _ G) | exact (ig_cells_pos _ _ _ _ _ _ _ _ G)].
  Qed.

  Lemma cell_ind_at i : (i < N)%nat ->
    cell_ind D (lo_at eps D rows ids i) cells nc (nth i rows []) = map (cell_at i) (seq 0 D).
  Proof.
    intros Hi. apply map_ext_in. intros d Hd. apply in_seq in Hd.
    pose proof (cell_at_range i d Hi ltac:(lia)). unfold clip, cell_at in *. lia.
  Qed.

  Lemma cells_in i : (i < N)%nat -> in_cells nc (map (cell_at i) (seq 0 D)).
  Proof.
    intros Hi. assert (H : forall k n, (k + n)%nat = D -> forall l, length l = n ->
      (forall m, (m < n)%nat -> nth m l 0 = nth (k + m) nc 0) ->
      in_cells l (map (cell_at i) (seq k n))).
    { intros k n. revert k. induction n as [|n IH]; intros k Hk l Hl Hn.
      - destruct l; [constructor|discriminate].
      - destruct l as [|x l]; [discriminate|]. cbn [seq map]. constructor.
        + pose proof (Hn 0%nat ltac:(lia)) as E. cbn in E. rewrite E, Nat.add_0_r.
          apply cell_at_range; [exact Hi|lia].
        + apply IH; [lia|now inversion Hl|]. intros m Hm. replace (S k + m)%nat with (k + S m)%nat by lia.
          rewrite <- (Hn (S m)) by lia. reflexivity. }
    apply (H 0%nat D); [lia|apply nc_length|reflexivity].
  Qed.

  Hypothesis Hover : Z.of_nat B * zprod nc <= 2 ^ 31.

  Lemma key_value i : (i < N)%nat ->
    nth i (gkeys g) 0 = Z.of_nat (nth i ids 0%nat) * zprod nc + radix nc (map (cell_at i) (seq 0 D)).
  Proof.
    intros Hi. rewrite (ig_keys _ _ _ _ _ _ _ _ G). rewrite nth_map_seq by exact Hi.
    fold nc. rewrite (cell_ind_at i Hi). rewrite key_of_unwrapped by (rewrite map_length, seq_length; now rewrite nc_length).
    apply wrap32_id. pose proof (radix_range nc _ (cells_in i Hi)). pose proof (g_id_lt i Hi).
    pose proof (zprod_pos nc nc_pos_all). nia.
  Qed.

  Lemma key_range i : (i < N)%nat -> 0 <= nth i (gkeys g) 0 < Z.of_nat B * zprod nc.
  Proof.
    intros Hi. rewrite (key_value i Hi). pose proof (radix_range nc _ (cells_in i Hi)).
    pose proof (g_id_lt i Hi). pose proof (zprod_pos nc nc_pos_all). nia.
  Qed.

  Lemma key_inj i j : (i < N)%nat -> (j < N)%nat ->
    (nth i (gkeys g) 0 = nth j (gkeys g) 0 <->
     nth i ids 0%nat = nth j ids 0%nat /\ forall d, (d < D)%nat -> cell_at i d = cell_at j d).
  Proof.
    intros Hi Hj. rewrite (key_value i Hi), (key_value j Hj).
    pose proof (radix_range nc _ (cells_in i Hi)). pose proof (radix_range nc _ (cells_in j Hj)). split.
    - intros E. assert (Hb : nth i ids 0%nat = nth j ids 0%nat) by nia. split; [exact Hb|].
      rewrite Hb in E. assert (Hr : radix nc (map (cell_at i) (seq 0 D)) = radix nc (map (cell_at j) (seq 0 D))) by lia.
      apply radix_inj in Hr; [|now apply cells_in|now apply cells_in].
      intros d Hd. rewrite <- (nth_map_seq (cell_at i) D d 0 Hd), <- (nth_map_seq (cell_at j) D d 0 Hd). now rewrite Hr.
    - intros [-> Hc]. do 2 f_equal. apply map_ext_in. intros d Hd. apply in_seq in Hd. apply Hc. lia.
  Qed.
End GridObj.

(** * The 2D access structure *)

Lemma fold_min_spec e l :
  let m := fold_right Z.min e l in (forall x, In x l -> m <= x) /\ m <= e /\ (m = e \/ In m l).
Proof.
  induction l as [|y l IH]; cbn; [split; [intros ? []|split; [lia|now left]]|].
  destruct IH as (H1 & H2 & H3). split; [|split; [lia|]].
  - intros x [->|Hx]; [lia|]. specialize (H1 x Hx). lia.
  - destruct (Z.min_spec y (fold_right Z.min e l)) as [[_ ->]|[_ ->]]; tauto.
Qed.
Lemma fold_max_spec e l :
  let m := fold_right Z.max e l in (forall x, In x l -> x <= m) /\ e <= m /\ (m = e \/ In m l).
Proof.
  induction l as [|y l IH]; cbn; [split; [intros ? []|split; [lia|now left]]|].
  destruct IH as (H1 & H2 & H3). split; [|split; [lia|]].
  - intros x [->|Hx]; [lia|]. specialize (H1 x Hx). lia.
  - destruct (Z.max_spec y (fold_right Z.max e l)) as [[_ ->]|[_ ->]]; tauto.
Qed.

Lemma zsegment_seq s (f : nat -> Z) (h : nat -> Z) n :
  zsegment s (map h (seq 0 n)) (map f (seq 0 n)) = map h (filter (fun j => f j =? s) (seq 0 n)).
Proof.
  unfold zsegment. rewrite combine_map_map, filter_map_swap, map_map. reflexivity.
Qed.

Lemma ds_entry_spec (f : nat -> Z) n s :
  Z.of_nat n < int32_max ->
  (forall j k, (j < k)%nat -> (k < n)%nat -> f k <= f j) ->
  exists a e, ds_entry (Z.of_nat n)
      (fold_right Z.min int32_max (map Z.of_nat (filter (fun j => f j =? s) (seq 0 n))),
       fold_right Z.max int32_min (map Z.succ (map Z.of_nat (filter (fun j => f j =? s) (seq 0 n))))) = (a, e) /\
    0 <= a <= e /\ e <= Z.of_nat n /\
    forall j, (j < n)%nat -> (a <= Z.of_nat j < e <-> f j = s).
Proof.
  intros Hn Hf. set (P := filter (fun j => f j =? s) (seq 0 n)).
  assert (HP : forall j, In j P <-> (j < n)%nat /\ f j = s).
  { intros j. unfold P. rewrite filter_In, in_seq, Z.eqb_eq. lia. }
  pose proof (fold_min_spec int32_max (map Z.of_nat P)) as (M1 & M2 & M3).
  pose proof (fold_max_spec int32_min (map Z.succ (map Z.of_nat P))) as (X1 & X2 & X3).
  set (mn := fold_right Z.min int32_max (map Z.of_nat P)) in *.
  set (mx := fold_right Z.max int32_min (map Z.succ (map Z.of_nat P))) in *.
  assert (HPe : P = [] \/ exists j, In j P) by (destruct P as [|p0 P']; [now left|right; exists p0; now left]).
  clearbody P. destruct HPe as [->|[j0 Hj0]].
  - exists 0, 0. unfold mn, mx, ds_entry. cbn [map fold_right]. split; [|split; [lia|split; [lia|]]].
    + change (int32_max <? 0) with false. cbn [negb]. cbv iota beta.
      destruct (Z.ltb_spec (Z.of_nat n) int32_max); [reflexivity|lia].
    + intros j Hj. split; [lia|]. intros E. exfalso. exact (proj2 (HP j) (conj Hj E)).
  - assert (Hmn : exists a, In a P /\ mn = Z.of_nat a).
    { destruct M3 as [E|E].
      - exfalso. apply HP in Hj0 as Hj0'. specialize (M1 (Z.of_nat j0) (in_map _ _ _ Hj0)). lia.
      - apply in_map_iff in E as (a & Ea & Ha). exists a. auto. }
    assert (Hmx : exists c, In c P /\ mx = Z.succ (Z.of_nat c)).
    { destruct X3 as [E|E].
      - exfalso. specialize (X1 _ (in_map _ _ _ (in_map _ _ _ Hj0))). unfold int32_min in *. lia.
      - apply in_map_iff in E as (z & Ez & Hz). apply in_map_iff in Hz as (c & Ec & Hc). exists c. split; [exact Hc|]. lia. }
    destruct Hmn as (a & Ha & Ea). destruct Hmx as (c & Hc & Ec).
    pose proof (proj1 (HP a) Ha) as [Ha1 Ha2]. pose proof (proj1 (HP c) Hc) as [Hc1 Hc2].
    assert (Hac : (a <= c)%nat).
    { specialize (M1 (Z.of_nat c) (in_map _ _ _ Hc)). lia. }
    exists mn, mx. unfold ds_entry. rewrite Ea, Ec.
    destruct (Z.ltb_spec (Z.of_nat a) 0); [lia|]. destruct (Z.ltb_spec (Z.of_nat n) (Z.of_nat a)); [lia|].
    split; [reflexivity|]. split; [lia|]. split; [lia|]. intros j Hj. split.
    + intros [H1 H2].
      assert (f j <= s). { destruct (Nat.eq_dec a j) as [<-|Hne]; [lia|]. pose proof (Hf a j ltac:(lia) Hj). lia. }
      assert (s <= f j). { destruct (Nat.eq_dec j c) as [<-|Hne]; [lia|]. pose proof (Hf j c ltac:(lia) Hc1). lia. }
      lia.
    + intros E. assert (Hin : In j P) by (apply HP; auto).
      pose proof (M1 _ (in_map _ _ _ Hin)). pose proof (X1 _ (in_map _ _ _ (in_map _ _ _ Hin))). lia.
Qed.

Lemma nth_map_seq' {A} (l : list A) d : l = map (fun i => nth i l d) (seq 0 (length l)).
Proof. symmetry. apply map_nth_seq. Qed.

(** The access structure for any descending in-range keys. *)
Lemma build_grid_ds_spec dev keys n0 n1 rest B :
  1 <= n0 -> 1 <= n1 -> 1 <= zprod rest ->
  Z.of_nat B * (n0 * (n1 * zprod rest)) <= 2 ^ 31 ->
  Z.of_nat (length keys) < int32_max ->
  (forall j, (j < length keys)%nat -> 0 <= nth j keys 0 < Z.of_nat B * (n0 * (n1 * zprod rest))) ->
  (forall j k, (j < k)%nat -> (k < length keys)%nat -> nth k keys 0 <= nth j keys 0) ->
  exists d, build_grid_ds dev keys (n0 :: n1 :: rest) B = Ok d /\
    dsB d = B /\ ds0 d = n0 /\ ds1 d = n1 /\
    forall b x y, (b < B)%nat -> 0 <= x < n0 -> 0 <= y < n1 ->
      exists s e, ds_lookup d b x y = Some (s, e) /\ 0 <= s <= e /\ e <= Z.of_nat (length keys) /\
        forall j, (j < length keys)%nat ->
          (s <= Z.of_nat j < e <-> nth j keys 0 / zprod rest = (Z.of_nat b * n0 + x) * n1 + y).
Proof.
  intros H0 H1 HR Hover HN Hr Hs. set (N := length keys) in *. set (R := zprod rest) in *.
  assert (HR' : match rest with [] => 1 | _ => zprod rest end = R) by (destruct rest; reflexivity).
  set (f := fun j => nth j keys 0 / R).
  assert (Hdi : map (fun k => k / R) (map wrap32 keys) = map f (seq 0 N)).
  { rewrite map_map. rewrite (nth_map_seq' keys 0) at 1. fold N. rewrite map_map. apply map_ext_in.
    intros j Hj. apply in_seq in Hj. unfold f. rewrite wrap32_id; [reflexivity|]. specialize (Hr j ltac:(lia)). lia. }
  assert (Hf : forall j, (j < N)%nat -> 0 <= f j < Z.of_nat B * n0 * n1).
  { intros j Hj. specialize (Hr j Hj). unfold f. split; [apply Z.div_pos; lia|].
    apply Z.div_lt_upper_bound; lia. }
  assert (Hm : forall j k, (j < k)%nat -> (k < N)%nat -> f k <= f j).
  { intros j k Hjk Hk. apply Z.div_le_mono; [lia|]. now apply Hs. }
  assert (Hchk : (match dev with CPU => negb (forallb (fun i => i <? Z.of_nat B * n0 * n1) (map f (seq 0 N)))
                    | GPU => false end) = false).
  { destruct dev; [|reflexivity]. apply negb_false_iff, forallb_forall. intros z Hz.
    apply in_map_iff in Hz as (j & <- & Hj). apply in_seq in Hj. apply Z.ltb_lt. apply Hf. lia. }
  unfold build_grid_ds. rewrite HR', Hdi. unfold zseg_reduce. fold N. rewrite Hchk. cbn [bind].
  eexists. split; [reflexivity|]. cbn [dsB ds0 ds1]. do 3 (split; [reflexivity|]).
  intros b x y Hb Hx Hy. set (idx := (Z.of_nat b * n0 + x) * n1 + y).
  assert (Hq : 0 <= Z.of_nat b * n0 + x < Z.of_nat B * n0) by nia.
  assert (Hidx : 0 <= idx < Z.of_nat B * n0 * n1).
  { unfold idx. clear - Hq Hy H1. generalize dependent (Z.of_nat b * n0 + x). intros q Hq.
    generalize dependent (Z.of_nat B * n0). intros w Hq. nia. }
  destruct (ds_entry_spec f N idx HN Hm) as (a & e & E & Ha & He & Hj).
  exists a, e. split; [|auto].
  unfold ds_lookup. cbn [dsB ds0 ds1 dsranges].
  replace (Nat.ltb b B) with true by (symmetry; apply Nat.ltb_lt; exact Hb).
  replace (0 <=? x) with true by (symmetry; apply Z.leb_le; lia).
  replace (x <? n0) with true by (symmetry; apply Z.ltb_lt; lia).
  replace (0 <=? y) with true by (symmetry; apply Z.leb_le; lia).
  replace (y <? n1) with true by (symmetry; apply Z.ltb_lt; lia).
  cbn [andb]. fold idx.
  rewrite combine_map_map, map_map. rewrite (nth_error_nth' _ _ (0,0)).
  - rewrite nth_map_seq by lia. rewrite Z2Nat.id by lia.
    rewrite map_map. rewrite !zsegment_seq.
    rewrite <- (map_map Z.of_nat Z.succ). now rewrite E.
  - rewrite map_length, seq_length. lia.
Qed.
