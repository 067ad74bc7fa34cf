(** Facts about the float32 grid. *)
From Coq Require Import List Arith ZArith QArith Qround Qabs Qminmax Lia Lqa Bool Permutation.
From Verif Require Import Tensor TensorFacts Spec PointCloud SpecCloud History PointCloudFacts QFacts CloudProofs
  Grid SpecGrid GridFacts Neighbors SpecNeighbors NeighborFacts Float FloatFacts FloatGrid KeyGridFacts.
Import ListNotations.
Local Open Scope Z_scope.

Lemma pow2_pow2_split a b : (pow2 (a + b) == pow2 a * pow2 b)%Q.
Proof.
  apply Qreals.eqR_Qeq. rewrite Qreals.Q2R_mult, !pow2_bpow. apply Raux.bpow_plus.
Qed.

(** * The margin of the box *)
Definition represented (x : Q) : Prop := (f32 x == x)%Q.

Lemma margin32_value : margin32 = 9007199 # 9007199254740992.
Proof. reflexivity. Qed.

Lemma near_equal x y : represented x -> represented y -> ((1 # 32) <= Qabs x)%Q -> ((1 # 32) <= Qabs y)%Q ->
  (Qabs (x - y) < 1 # 268435456)%Q -> (x == y)%Q.
Proof.
  intros Hx Hy Ax Ay H. destruct (f32_multiple x (-5) Hx Ax ltac:(lia)) as (a & Ea). destruct (f32_multiple y (-5) Hy Ay ltac:(lia)) as (b & Eb).
  change (pow2 (-5 - 23)) with (1 # 268435456) in *. rewrite Ea, Eb in H |- *.
  apply Qabs_Qlt_condition in H as [H1 H2].
  assert (a = b); [|subst; reflexivity].
  assert (H3 : (inject_Z a - inject_Z b < 1)%Q) by lra. assert (H4 : (- (1) < inject_Z a - inject_Z b)%Q) by lra.
  change 1%Q with (inject_Z 1) in *. change (- inject_Z 1)%Q with (inject_Z (-1)) in H4.
  unfold Qminus in *. rewrite <- inject_Z_opp, <- inject_Z_plus in H3, H4. rewrite <- Zlt_Qlt in H3, H4. lia.
Qed.

Lemma margin_lost m t : represented m -> ((1 # 32) < Qabs m)%Q -> (Qabs t <= margin32)%Q -> (f32 (m + t) == m)%Q.
Proof.
  intros Hm Am Ht. rewrite margin32_value in Ht.
  pose proof (f32_nearest (m + t) m Hm) as H.
  assert (E1 : (Qabs (m - (m + t)) == Qabs t)%Q) by (setoid_replace (m - (m + t))%Q with (- t)%Q by ring; apply Qabs_opp).
  rewrite E1 in H. assert (Hy : (Qabs (f32 (m + t) - m) <= (18014398 # 9007199254740992))%Q).
  { setoid_replace (f32 (m + t) - m)%Q with ((f32 (m + t) - (m + t)) + t)%Q by ring.
    eapply Qle_trans; [apply Qabs_triangle|]. lra. }
  destruct (f32_multiple m (-5) Hm ltac:(change (pow2 (-5)) with (1 # 32); lra) ltac:(lia)) as (a & Ea).
  change (pow2 (-5 - 23)) with (1 # 268435456) in Ea.
  assert (Am' : ((8388609 # 268435456) <= Qabs m)%Q).
  { rewrite Ea in Am |- *. rewrite Qabs_Qmult in *. change (Qabs (1 # 268435456)) with (1 # 268435456) in *.
    change (Qabs (inject_Z a)) with (inject_Z (Z.abs a)) in *.
    assert (H1 : (inject_Z 8388608 < inject_Z (Z.abs a))%Q) by (change (inject_Z 8388608) with (8388608 # 1); lra).
    rewrite <- Zlt_Qlt in H1. assert (H2 : 8388609 <= Z.abs a) by lia. rewrite Zle_Qle in H2.
    change (inject_Z 8388609) with (8388609 # 1) in H2. lra. }
  apply near_equal; [apply f32_f32|exact Hm| |lra|].
  - apply Qabs_Qle_condition in Hy as [Y1 Y2]. revert Am'. apply Qabs_case; intros S1 S2; apply Qle_trans with (if Qlt_le_dec 0 m then f32 (m + t) else - f32 (m + t))%Q.
    1,3: destruct (Qlt_le_dec 0 m); lra.
    1,2: destruct (Qlt_le_dec 0 m); [apply Qle_Qabs|rewrite <- Qabs_opp; apply Qle_Qabs].
  - eapply Qle_lt_trans; [exact Hy|reflexivity].
Qed.

Lemma small_err x : (Qabs x < 1 # 32)%Q -> (Qabs (f32 x - x) <= 1 # 1073741824)%Q.
Proof. intros H. exact (f32_half_ulp x (-5) H ltac:(lia)). Qed.

Lemma margin_above m : represented m -> (Qabs m < 1 # 32)%Q -> (m < f32 (m + margin32))%Q.
Proof.
  intros Hm Am. apply Qabs_Qlt_condition in Am as [A1 A2]. pose proof margin32_value as Ev.
  destruct (Qlt_le_dec (m + margin32) (1 # 32)) as [H|H].
  - assert (Ha : (Qabs (m + margin32) < 1 # 32)%Q) by (apply Qabs_Qlt_condition; rewrite Ev in *; lra).
    pose proof (small_err _ Ha) as He. apply Qabs_Qle_condition in He as [He _]. rewrite Ev in *. lra.
  - apply f32_mono in H. assert (E : (f32 (1 # 32) == 1 # 32)%Q) by reflexivity. lra.
Qed.

Lemma margin_below m : represented m -> (Qabs m < 1 # 32)%Q -> (f32 (m - margin32) < m)%Q.
Proof.
  intros Hm Am. apply Qabs_Qlt_condition in Am as [A1 A2]. pose proof margin32_value as Ev.
  destruct (Qlt_le_dec (- (1 # 32)) (m - margin32)) as [H|H].
  - assert (Ha : (Qabs (m - margin32) < 1 # 32)%Q) by (apply Qabs_Qlt_condition; rewrite Ev in *; lra).
    pose proof (small_err _ Ha) as He. apply Qabs_Qle_condition in He as [_ He]. rewrite Ev in *. lra.
  - apply f32_mono in H. assert (E : (f32 (- (1 # 32)) == - (1 # 32))%Q) by reflexivity. lra.
Qed.

(** * Rounded quotients *)
Lemma quotient_err A r : (pow2 (-100) <= r)%Q ->
  (Qabs (f32 (f32 A / r) - A / r) <= Qabs (A / r) * (33554433 # 281474976710656) + (1 # 562949953421312))%Q.
Proof.
  intros Hr. assert (Hp : (0 < r)%Q) by (eapply Qlt_le_trans; [|exact Hr]; reflexivity).
  set (t := (A / r)%Q). set (y := (f32 A / r)%Q).
  assert (Hy : (Qabs (y - t) <= Qabs t * (1 # 16777216) + (1 # 1125899906842624))%Q).
  { unfold y, t. setoid_replace (f32 A / r - A / r)%Q with ((f32 A - A) / r)%Q by (field; lra).
    unfold Qdiv. rewrite !Qabs_Qmult. assert (Hi : (0 < / r)%Q) by now apply Qinv_lt_0_compat.
    rewrite (Qabs_pos (/ r)) by lra.
    pose proof (f32_err A) as He. change (pow2 (-24)) with (1 # 16777216) in He.
    apply (Qmult_le_compat_r _ _ (/ r)) in He; [|lra].
    assert (Hs : (pow2 (-150) * / r <= 1 # 1125899906842624)%Q).
    { apply Qle_shift_div_r; [exact Hp|]. eapply Qle_trans; [|apply Qmult_le_l; [reflexivity|exact Hr]]. apply Qle_refl. }
    eapply Qle_trans; [exact He|]. lra. }
  pose proof (f32_err y) as H2. change (pow2 (-24)) with (1 # 16777216) in H2.
  assert (Hyt : (Qabs y <= Qabs t + Qabs (y - t))%Q).
  { setoid_replace y with (t + (y - t))%Q at 1 by ring. apply Qabs_triangle. }
  assert (H3 : (Qabs (f32 y - t) <= Qabs (f32 y - y) + Qabs (y - t))%Q).
  { setoid_replace (f32 y - t)%Q with ((f32 y - y) + (y - t))%Q by ring. apply Qabs_triangle. }
  assert (H4 : (pow2 (-150) <= 1 # 1152921504606846976)%Q) by (vm_compute; discriminate).
  pose proof (Qabs_nonneg t). lra.
Qed.

Lemma floor_close a b : (Qabs (a - b) <= 1)%Q -> -1 <= Qfloor a - Qfloor b <= 1.
Proof.
  intros H. apply Qabs_Qle_condition in H as [H1 H2].
  pose proof (Qfloor_le a) as A1. pose proof (Qlt_floor a) as A2. pose proof (Qfloor_le b) as B1. pose proof (Qlt_floor b) as B2.
  assert (Ha : (inject_Z (Qfloor a) < inject_Z (Qfloor b + 1 + 1))%Q) by (rewrite inject_Z_plus; change (inject_Z 1) with 1%Q; lra).
  assert (Hb : (inject_Z (Qfloor b) < inject_Z (Qfloor a + 1 + 1))%Q) by (rewrite inject_Z_plus; change (inject_Z 1) with 1%Q; lra).
  rewrite <- Zlt_Qlt in Ha, Hb. lia.
Qed.

(** Points within the reduced radius have adjacent cells. *)
Lemma cells_adjacent A C r (n : Z) : (pow2 (-100) <= r)%Q -> 1 <= n ->
  0 <= Qfloor (f32 (f32 A / r)) < n ->
  (Qabs (A - C) <= r * (1 - (inject_Z n + 2) / 4194304))%Q ->
  -1 <= Qfloor (f32 (f32 A / r)) - Qfloor (f32 (f32 C / r)) <= 1.
Proof.
  intros Hr Hn Hf H. assert (Hp : (0 < r)%Q) by (eapply Qlt_le_trans; [|exact Hr]; reflexivity).
  apply floor_close. pose proof (quotient_err A r Hr) as EA. pose proof (quotient_err C r Hr) as EC.
  set (qa := f32 (f32 A / r)) in *. set (qc := f32 (f32 C / r)) in *.
  set (ta := (A / r)%Q) in *. set (tc := (C / r)%Q) in *.
  assert (Hd : (Qabs (ta - tc) <= 1 - (inject_Z n + 2) / 4194304)%Q).
  { unfold ta, tc. setoid_replace (A / r - C / r)%Q with ((A - C) / r)%Q by (field; lra).
    unfold Qdiv at 1. rewrite Qabs_Qmult. assert (Hi : (0 < / r)%Q) by now apply Qinv_lt_0_compat.
    rewrite (Qabs_pos (/ r)) by lra. apply Qle_shift_div_r; [exact Hp|]. rewrite Qmult_comm. exact H. }
  assert (Hq : (Qabs qa <= inject_Z n)%Q).
  { destruct Hf as [F1 F2]. pose proof (Qfloor_le qa) as X1. pose proof (Qlt_floor qa) as X2.
    assert (Y1 : (inject_Z 0 <= inject_Z (Qfloor qa))%Q) by (rewrite <- Zle_Qle; exact F1).
    assert (Y2 : (inject_Z (Qfloor qa + 1) <= inject_Z n)%Q) by (rewrite <- Zle_Qle; lia).
    change (inject_Z 0) with 0%Q in Y1. apply Qabs_Qle_condition. lra. }
  assert (Hta : (Qabs ta <= Qabs qa + Qabs (qa - ta))%Q).
  { setoid_replace ta with (qa - (qa - ta))%Q at 1 by ring. eapply Qle_trans; [apply Qabs_triangle|]. rewrite Qabs_opp. apply Qle_refl. }
  assert (Htc : (Qabs tc <= Qabs ta + Qabs (ta - tc))%Q).
  { setoid_replace tc with (ta - (ta - tc))%Q at 1 by ring. eapply Qle_trans; [apply Qabs_triangle|]. rewrite Qabs_opp. apply Qle_refl. }
  assert (Hsum : (Qabs (qa - qc) <= Qabs (qa - ta) + Qabs (ta - tc) + Qabs (qc - tc))%Q).
  { setoid_replace (qa - qc)%Q with ((qa - ta) + (ta - tc) + - (qc - tc))%Q by ring.
    eapply Qle_trans; [apply Qabs_triangle|]. rewrite Qabs_opp. apply Qplus_le_compat; [apply Qabs_triangle|apply Qle_refl]. }
  pose proof (Qabs_nonneg (ta - tc)) as N1.
  assert (Hn1 : (inject_Z n <= 4194304)%Q) by (unfold Qdiv in Hd; change (/ 4194304)%Q with (1 # 4194304) in Hd; lra).
  assert (Hn0 : (1 <= inject_Z n)%Q) by (change 1%Q with (inject_Z 1); rewrite <- Zle_Qle; exact Hn).
  unfold Qdiv in Hd. change (/ 4194304)%Q with (1 # 4194304) in Hd. lra.
Qed.

(** * The grid object *)
Definition lo32 (D : nat) (rows : list point) (ids : list nat) (b : nat) : point :=
  map (fun x => f32 (x - margin32))%Q (red_min D (element b rows ids)).
Definition hi32 (D : nat) (rows : list point) (ids : list nat) (b : nat) : point :=
  map (fun x => f32 (x + margin32))%Q (red_max D (element b rows ids)).

Lemma make_aabb32_data dev p :
  length (pts p) = length (bids p) -> Forall (fun b => (b < bsize p)%nat) (bids p) ->
  make_aabb32 dev p = Ok (AABB (map (lo32 (dim p) (pts p) (bids p)) (seq 0 (bsize p)))
                               (map (hi32 (dim p) (pts p) (bids p)) (seq 0 (bsize p))) (bshape p)).
Proof.
  intros Hl HB. unfold make_aabb32, unsorted_segment.
  rewrite Hl, Nat.eqb_refl. cbn [negb].
  assert (Hd : (match dev with CPU => negb (forallb (fun i => Nat.ltb i (bsize p)) (bids p)) | GPU => false end) = false).
  { destruct dev; [|reflexivity]. apply negb_false_iff, forallb_forall. intros i Hi.
    rewrite Forall_forall in HB. apply Nat.ltb_lt. now apply HB. }
  rewrite Hd. cbn [bind]. rewrite !map_map. reflexivity.
Qed.

Record is_grid32 (D : nat) (rows : list point) (ids : list nat) (B : nat) (cells : point) (g : grid) : Prop := {
  h_dim : dim (gcloud g) = D;
  h_bsize : bsize (gcloud g) = B;
  h_len : length rows = length ids;
  h_ids : Forall (fun b => (b < B)%nat) ids;
  h_cells : gcells g = cells;
  h_cells_len : length cells = D;
  h_cells_pos : forall d, (d < D)%nat -> (0 < coord cells d)%Q;
  h_min : amin (gbox g) = map (lo32 D rows ids) (seq 0 B);
  h_max : amax (gbox g) = map (hi32 D rows ids) (seq 0 B);
  h_nc : gnc g = num_cells32 D (gbox g) cells;
  h_keys : gkeys g = map (fun i => key_of (gnc g) (nth i ids 0%nat)
      (cell_ind32 D (lo32 D rows ids (nth i ids 0%nat)) cells (gnc g) (nth i rows []))) (seq 0 (length ids));
  h_sidx : gsidx g = argsort_desc (gkeys g);
  h_skeys : gskeys g = map (fun i => nth i (gkeys g) 0) (gsidx g);
  h_spts : gspts g = map (fun i => nth i rows []) (gsidx g);
  h_sbids : gsbids g = map (fun i => nth i ids 0%nat) (gsidx g);
  h_ds : gds g = None }.

Lemma mk_grid32_is dev eps D rows ids B p cs g :
  is_cloud dev eps D rows ids B p -> mk_grid32 dev p cs = Ok g -> is_grid32 D rows ids B (bcast D (map f32 cs)) g.
Proof.
  intros Hc. unfold mk_grid32. rewrite (ic_dim _ _ _ _ _ _ _ Hc). set (cells := bcast D (map f32 cs)).
  pose proof Hc as [H1 H2 H3 H4 H5 H6 H7 H8].
  rewrite make_aabb32_data by (rewrite ?H1, ?H2, ?H3; auto). rewrite H1, H2, H3, H4. cbn [bind].
  destruct (Nat.eqb_spec (length cells) D) as [Hl|]; cbn [negb]; [|discriminate].
  destruct (forallb _ cells) eqn:Hpos; cbn [negb]; [|discriminate].
  set (a := AABB _ _ _). set (nc := num_cells32 D a cells).
  unfold compute_keys32. change (amin a) with (map (lo32 D rows ids) (seq 0 B)).
  rewrite (gather_map _ _ []) by (rewrite map_length, seq_length; exact H6). cbn [bind].
  set (keys := map _ (combine (combine rows _) ids)).
  assert (Hk : keys = map (fun i => key_of nc (nth i ids 0%nat)
      (cell_ind32 D (lo32 D rows ids (nth i ids 0%nat)) cells nc (nth i rows []))) (seq 0 (length ids))).
  { unfold keys.
    assert (Ll : length (map (fun i => nth i (map (lo32 D rows ids) (seq 0 B)) []) ids) = length rows)
      by (rewrite map_length; lia).
    rewrite (combine_nth_seq _ ids ([],[]) 0%nat) by (rewrite combine_length, Ll; lia).
    rewrite combine_length, Ll, Nat.min_id, H5, map_map. apply map_ext_in. intros i Hi. apply in_seq in Hi.
    cbn [fst snd]. rewrite combine_nth by now symmetry. cbn [fst snd].
    assert (Hb : (nth i ids 0 < B)%nat) by (rewrite Forall_forall in H6; apply H6, nth_In; lia).
    rewrite (nth_indep _ [] (nth 0 (map (lo32 D rows ids) (seq 0 B)) [])) by (rewrite map_length; lia).
    rewrite (map_nth (fun i => nth i (map (lo32 D rows ids) (seq 0 B)) [])).
    rewrite nth_map_seq by exact Hb. reflexivity. }
  assert (Lk : length keys = length ids) by (rewrite Hk, map_length, seq_length; reflexivity).
  pose proof (argsort_lt (fun a b => b <=? a) keys) as Hlt. fold (argsort_desc keys) in Hlt.
  rewrite (gather_map keys _ 0) by exact Hlt. cbn [bind].
  rewrite (gather_map rows _ []) by (rewrite H5, <- Lk; exact Hlt). cbn [bind].
  rewrite (gather_map ids _ 0%nat) by (rewrite <- Lk; exact Hlt). cbn [bind].
  intros E. inversion E; subst g; clear E. constructor; cbn; auto.
  intros d Hd. rewrite forallb_forall in Hpos. assert (Hin : In (coord cells d) cells) by (apply nth_In; lia).
  specialize (Hpos _ Hin). apply negb_true_iff in Hpos. apply Qnot_le_lt. intros Hx. apply Qle_bool_iff in Hx. congruence.
Qed.

Section Grid32.
  Context (D : nat) (rows : list point) (ids : list nat) (B : nat) (cells : point) (g : grid).
  Hypothesis G : is_grid32 D rows ids B cells g.
  Hypothesis Hrep : forall i d, (i < length ids)%nat -> (d < D)%nat -> represented (xc rows i d).
  Definition cell32 (i d : nat) : Z := raw_cell32 (lo32 D rows ids (nth i ids 0%nat)) cells (nth i rows []) d.

  Lemma id32_lt i : (i < length ids)%nat -> (nth i ids 0 < B)%nat.
  Proof. intros H. pose proof (h_ids _ _ _ _ _ _ G) as HF. rewrite Forall_forall in HF. apply HF, nth_In, H. Qed.

  Lemma lo32_le i d : (i < length ids)%nat -> (d < D)%nat -> (coord (lo32 D rows ids (nth i ids 0%nat)) d <= xc rows i d)%Q.
  Proof.
    intros Hi Hd. unfold lo32. rewrite coord_map by now rewrite red_min_length.
    pose proof (lo_le 0 D rows ids (h_len _ _ _ _ _ _ G) _ i d Hd Hi eq_refl) as H. unfold lo_of in H.
    rewrite coord_map in H by now rewrite red_min_length.
    pose proof (Hrep i d Hi Hd) as E. unfold represented in E. apply Qle_trans with (f32 (xc rows i d)); [|lra].
    apply f32_mono. assert (0 < margin32)%Q by reflexivity. lra.
  Qed.
  Lemma hi32_ge i d : (i < length ids)%nat -> (d < D)%nat -> (xc rows i d <= coord (hi32 D rows ids (nth i ids 0%nat)) d)%Q.
  Proof.
    intros Hi Hd. unfold hi32. rewrite coord_map by now rewrite red_max_length.
    pose proof (hi_ge 0 D rows ids (h_len _ _ _ _ _ _ G) _ i d Hd Hi eq_refl) as H. unfold hi_of in H.
    rewrite coord_map in H by now rewrite red_max_length.
    pose proof (Hrep i d Hi Hd) as E. unfold represented in E. apply Qle_trans with (f32 (xc rows i d)); [lra|].
    apply f32_mono. assert (0 < margin32)%Q by reflexivity. lra.
  Qed.

  Lemma nc32_length : length (gnc g) = D.
  Proof. rewrite (h_nc _ _ _ _ _ _ G). unfold num_cells32. now rewrite map_length, seq_length. Qed.
  Lemma nc32_pos d : (d < D)%nat -> 1 <= nth d (gnc g) 0.
  Proof.
    intros Hd. rewrite (h_nc _ _ _ _ _ _ G). unfold num_cells32. rewrite nth_map_seq by exact Hd. lia.
  Qed.
  Definition top32 (i d : nat) : Q :=
    f32 (f32 (coord (hi32 D rows ids (nth i ids 0%nat)) d - coord (lo32 D rows ids (nth i ids 0%nat)) d) / coord cells d).
  Lemma top32_le i d : (i < length ids)%nat -> (d < D)%nat -> (top32 i d <= inject_Z (nth d (gnc g) 0%Z))%Q.
  Proof.
    intros Hi Hd. apply Qceiling_le_iff. rewrite (h_nc _ _ _ _ _ _ G). unfold num_cells32. rewrite nth_map_seq by exact Hd.
    set (l := map _ (combine _ _)).
    assert (Hin : In (Qceiling (top32 i d)) l).
    { unfold l. rewrite (h_min _ _ _ _ _ _ G), (h_max _ _ _ _ _ _ G), combine_map_map, map_map. apply in_map_iff.
      exists (nth i ids 0%nat). split; [reflexivity|]. apply in_seq. pose proof (id32_lt i Hi). lia. }
    pose proof (proj1 (fold_max_le l int32_min _) (Z.le_refl _)) as [_ H]. specialize (H _ Hin). lia.
  Qed.
  Lemma div_mono (x y c : Q) : (0 < c -> x <= y -> x / c <= y / c)%Q.
  Proof. intros Hc H. unfold Qdiv. apply Qmult_le_compat_r; [exact H|]. apply Qlt_le_weak. now apply Qinv_lt_0_compat. Qed.
  Lemma quotient_top i d : (i < length ids)%nat -> (d < D)%nat ->
    (0 <= quotient32 (lo32 D rows ids (nth i ids 0%nat)) cells (nth i rows []) d <= top32 i d)%Q.
  Proof.
    intros Hi Hd. unfold quotient32, top32. set (lo := lo32 _ _ _ _). set (hi := hi32 _ _ _ _).
    pose proof (lo32_le i d Hi Hd) as L. pose proof (hi32_ge i d Hi Hd) as U. fold lo in L. fold hi in U.
    change (coord (nth i rows []) d) with (xc rows i d). pose proof (h_cells_pos _ _ _ _ _ _ G d Hd) as Hc. split.
    - change 0%Q with (f32 (f32 0 / coord cells d)). apply f32_mono, div_mono; [exact Hc|]. apply f32_mono. lra.
    - apply f32_mono, div_mono; [exact Hc|]. apply f32_mono. lra.
  Qed.
  Lemma cell32_bounds i d : (i < length ids)%nat -> (d < D)%nat ->
    0 <= cell32 i d <= nth d (gnc g) 0 /\
    (cell32 i d = nth d (gnc g) 0 ->
     (quotient32 (lo32 D rows ids (nth i ids 0%nat)) cells (nth i rows []) d == top32 i d)%Q /\
     (top32 i d == inject_Z (nth d (gnc g) 0%Z))%Q).
  Proof.
    intros Hi Hd. destruct (quotient_top i d Hi Hd) as [Q1 Q2]. pose proof (top32_le i d Hi Hd) as Q3.
    unfold cell32, raw_cell32. set (q := quotient32 _ _ _ _) in *. pose proof (Qfloor_le q) as F. repeat split.
    - apply Qfloor_ge_iff. exact Q1.
    - rewrite Zle_Qle. lra.
    - rewrite H in F. apply Qle_antisym; lra.
    - rewrite H in F. apply Qle_antisym; lra.
  Qed.

  Hypothesis Hfit : forall i d, (i < length ids)%nat -> (d < D)%nat -> cell32 i d <> nth d (gnc g) 0.

  Lemma cell32_in i d : (i < length ids)%nat -> (d < D)%nat -> 0 <= cell32 i d < nth d (gnc g) 0.
  Proof. intros Hi Hd. pose proof (Hfit i d Hi Hd). pose proof (proj1 (cell32_bounds i d Hi Hd)). lia. Qed.

  Lemma keys32 : gkeys g = map (fun i => key_of (gnc g) (nth i ids 0%nat) (map (cell32 i) (seq 0 D))) (seq 0 (length ids)).
  Proof.
    rewrite (h_keys _ _ _ _ _ _ G). apply map_ext_in. intros i Hi. apply in_seq in Hi. f_equal.
    unfold cell_ind32. apply map_ext_in. intros d Hd. apply in_seq in Hd.
    pose proof (cell32_in i d ltac:(lia) ltac:(lia)). unfold cell32 in *. unfold clip. lia.
  Qed.

  Hypothesis Hover : Z.of_nat B * zprod (gnc g) <= 2 ^ 31.
  Lemma keys32_inj i j : (i < length ids)%nat -> (j < length ids)%nat ->
    (nth i (gkeys g) 0 = nth j (gkeys g) 0 <->
     nth i ids 0%nat = nth j ids 0%nat /\ forall d, (d < D)%nat -> cell32 i d = cell32 j d).
  Proof.
    apply (k_key_inj D rows ids B cell32 g); auto using keys32, nc32_length, cell32_in, nc32_pos;
      first [exact (h_len _ _ _ _ _ _ G)|exact (h_ids _ _ _ _ _ _ G)].
  Qed.

  (** ** The search *)
  Context (test : point -> point -> bool) (crows : list point) (cids : list nat) (cp : pc) (radii : list Q).
  Hypothesis HD : (2 <= D)%nat.
  Hypothesis HN : Z.of_nat (length ids) < int32_max.
  Hypothesis Cp : pts cp = crows.
  Hypothesis Cb : bids cp = cids.
  Hypothesis Cd : dim cp = D.
  Hypothesis Cl : length crows = length cids.
  Hypothesis HcB : Forall (fun b => (b < B)%nat) cids.
  Context (r0 r1 : Q) (rr : list Q).
  Hypothesis Hrad : bcast D (map f32 radii) = r0 :: r1 :: rr.
  Hypothesis Hp0 : (0 < r0)%Q.
  Hypothesis Hp1 : (0 < r1)%Q.
  Definition cc32 (cb : point * nat) : Z * Z :=
    (raw_cell32 (lo32 D rows ids (snd cb)) [r0; r1] (fst cb) 0, raw_cell32 (lo32 D rows ids (snd cb)) [r0; r1] (fst cb) 1).

  Lemma centers_cells32 n0 n1 cr ci : length cr = length ci -> Forall (fun b => (b < B)%nat) ci ->
    combine (combine cr ci)
      (map (fun x => (clip n0 (raw_cell32 (snd x) [r0; r1] (fst x) 0), clip n1 (raw_cell32 (snd x) [r0; r1] (fst x) 1)))
         (combine cr (map (fun i => nth i (map (lo32 D rows ids) (seq 0 B)) []) ci))) =
    map (fun cb => (cb, (clip n0 (fst (cc32 cb)), clip n1 (snd (cc32 cb))))) (combine cr ci).
  Proof.
    revert ci; induction cr as [|c cr IH]; intros [|b ci] Hl HB; try discriminate; [reflexivity|].
    apply Forall_cons_iff in HB as [Hb HB]. cbn [combine map fst snd]. f_equal.
    - rewrite nth_map_seq by exact Hb. reflexivity.
    - apply IH; [now inversion Hl|exact HB].
  Qed.

  Lemma find32_ok : cids <> [] ->
    exists ds, build_grid_ds GPU (gskeys g) (gnc g) B = Ok ds /\
      snd (find_neighbors32 GPU test g cp radii) =
        Ok (Ranges (shape_of (length cids)) (cum_ends 0 (map (kblk g test cc32 ds) (combine crows cids))),
            tagged 0 (map (kblk g test cc32 ds) (combine crows cids))).
  Proof.
    intros Hne.
    destruct (k_ds_ok D rows ids B cell32 g (h_len _ _ _ _ _ _ G) (h_ids _ _ _ _ _ _ G) nc32_length cell32_in keys32
                (h_sidx _ _ _ _ _ _ G) (h_skeys _ _ _ _ _ _ G) (h_sbids _ _ _ _ _ _ G) nc32_pos Hover HD HN GPU) as (ds & E & EB & _).
    exists ds. split; [exact E|]. unfold find_neighbors32. rewrite (h_dim _ _ _ _ _ _ G), Hrad.
    assert (Hx : forall x, (0 < x)%Q -> Qle_bool x 0 = false).
    { intros x Hx. apply not_true_is_false. rewrite Qle_bool_iff. lra. }
    rewrite (Hx r0 Hp0), (Hx r1 Hp1), Cd, Nat.eqb_refl. cbn [orb negb].
    rewrite Cb, Cp, (h_min _ _ _ _ _ _ G).
    rewrite (gather_map _ _ []) by (rewrite map_length, seq_length; exact HcB).
    rewrite centers_cells32 by assumption.
    unfold get_DS. rewrite (h_ds _ _ _ _ _ _ G), (h_bsize _ _ _ _ _ _ G), E. cbn [snd bind].
    rewrite (k_loop B g test cc32 ds 0 0 (combine crows cids) EB).
    2:{ apply Forall_forall. intros [c b] Hin. apply in_combine_r in Hin. cbn. rewrite Forall_forall in HcB. now apply HcB. }
    cbn [bind fst snd]. set (bl := map (kblk g test cc32 ds) (combine crows cids)).
    assert (Lb : length (cum_ends 0 bl) = length cids).
    { rewrite cum_ends_length. unfold bl. rewrite map_length, combine_length. lia. }
    rewrite <- Lb in *. clearbody bl. destruct (cum_ends 0 bl) as [|x [|y l]] eqn:Ec.
    - cbn in Lb. destruct cids; [congruence|cbn in Lb; lia].
    - reflexivity.
    - reflexivity.
  Qed.
End Grid32.
