(** Proofs that pooling keeps comparisons of features (C84). The statements are
    copied into PropertiesMonotone.v. *)
From Coq Require Import String List Arith ZArith QArith Reals Qreals Lia Lra Bool Permutation.
From Verif Require Import Tensor TensorFacts Spec SpecText TextFacts PointCloud SpecCloud PointCloudFacts QFacts Grid SpecGrid GridFacts
  Neighbors SpecNeighbors NeighborFacts NeighborProofs Neighborhood NeighborhoodFacts NeighborhoodProofs
  Sampling SpecSampling SamplingFacts SamplingProofs Hierarchy SpecHierarchy HierarchyFacts Pdf SpecPdf PdfFacts PdfProofs
  RTensor RTensorFacts Layers SpecLayers LayerFacts LayerLink LayerProofs ConvProofs MoveProofs BlockFacts SpecLinear LinearProofs SpecMonotone.
Import ListNotations.
Local Open Scope nat_scope.

Lemma sum_mono l (f g : nat -> R) : (forall j, In j l -> f j <= g j)%R -> (fold_right Rplus 0 (map f l) <= fold_right Rplus 0 (map g l))%R.
Proof.
  induction l as [|x l IH]; intros H; cbn [map fold_right]; [lra|].
  pose proof (H x (or_introl eq_refl)). assert (forall j, In j l -> f j <= g j)%R by (intros; apply H; now right). specialize (IH H1). lra.
Qed.

Lemma mean_mono l (f g : nat -> R) : (forall j, In j l -> f j <= g j)%R -> (mean (map f l) <= mean (map g l))%R.
Proof.
  intros H. unfold mean. rewrite !map_length. destruct l as [|x l]; [cbn; lra|].
  apply Rmult_le_compat_r; [|now apply sum_mono]. apply Rlt_le, Rinv_0_lt_compat, lt_0_INR. cbn; lia.
Qed.

Lemma mean_const (l : list nat) v : l <> [] -> mean (map (fun _ => v) l) = v.
Proof.
  intros H. unfold mean. rewrite map_length.
  assert (E : forall k : list nat, fold_right Rplus 0%R (map (fun _ => v) k) = (INR (length k) * v)%R).
  { induction k as [|x k IH]; cbn [map fold_right length]; [cbn; lra|]. rewrite IH, S_INR. lra. }
  rewrite E. field. apply not_0_INR. destruct l; [contradiction|cbn; lia].
Qed.

Lemma mean_le_max l (f : nat -> R) v : l <> [] -> is_max (map f l) v -> (mean (map f l) <= v)%R.
Proof.
  intros H [_ HF]. rewrite <- (mean_const l v H). apply mean_mono. intros j Hj. rewrite Forall_forall in HF. apply HF. now apply in_map.
Qed.

Lemma max_mono l (f g : nat -> R) v w : (forall j, In j l -> f j <= g j)%R -> is_max (map f l) v -> is_max (map g l) w -> (v <= w)%R.
Proof.
  intros H [Hv _] [_ HF]. apply in_map_iff in Hv as (j & <- & Hj). rewrite Forall_forall in HF.
  apply Rle_trans with (g j); [now apply H|]. apply HF. now apply in_map.
Qed.

Lemma below_tables p rs rp n C (ok : nat -> Prop) f1 f2 :
  (forall i c, i < n -> c < C -> ok i -> (f1 i c <= f2 i c)%R) ->
  outputs_below p rs rp n C ok (returned p rs rp C (table n C f1)) (returned p rs rp C (table n C f2)).
Proof.
  intros E. exists (table n C f1), (table n C f2). do 2 (split; [apply matrix_table|]). do 2 (split; [reflexivity|]).
  intros i o Hi Ho Hk. rewrite !fval_table by assumption. now apply E.
Qed.

(** C84, local pooling: larger features give larger maxima and averages, and where
    a point is within the radius the average is not above the maximum. *)
Lemma C84_local_partial_proof :
  forall eps D r rows ids pin crows cids pout radii feats1 feats2 C F1 F2 return_sorted return_padded,
    workable eps D r rows ids pin crows cids pout -> radii = [r] \/ radii = repeat r D ->
    given feats1 pin C F1 -> given feats2 pin C F2 -> not_above (length ids) C F1 F2 ->
    let search := find_neighbors_tf GPU in
    let largest := fun x => max_pooling GPU eps search x pin pout (Some radii) return_sorted return_padded in
    let average := fun x => average_pooling GPU eps search x pin pout (Some radii) return_sorted return_padded in
    let below := outputs_below pout return_sorted return_padded (length cids) C in
    below (fun _ => True) (largest feats1) (largest feats2) /\ below (fun _ => True) (average feats1) (average feats2) /\
    below (fun i => near_points D r rows ids crows cids i <> []) (average feats1) (largest feats1).
Proof.
  intros eps D r rows ids pin crows cids pout radii feats1 feats2 C F1 F2 rs rp W Hr G1 G2 HA search largest average below.
  destruct (C31_local_partial_proof eps D r rows ids pin crows cids pout radii feats1 C F1 rs rp W Hr G1) as (m1 & v1 & M1 & A1 & V1).
  destruct (C31_local_partial_proof eps D r rows ids pin crows cids pout radii feats2 C F2 rs rp W Hr G2) as (m2 & v2 & M2 & A2 & V2).
  unfold largest, average, search, below. rewrite M1, M2, A1, A2.
  assert (HV : forall i c, i < length cids -> c < C ->
    let l := near_points D r rows ids crows cids i in
    (l = [] -> m1 i c = m2 i c /\ v1 i c = v2 i c) /\
    (l <> [] -> is_max (map (fun j => fval F1 j c) l) (m1 i c) /\ is_max (map (fun j => fval F2 j c) l) (m2 i c) /\
       v1 i c = mean (map (fun j => fval F1 j c) l) /\ v2 i c = mean (map (fun j => fval F2 j c) l))).
  { intros i c Hi Hc l. specialize (V1 i c Hi Hc). specialize (V2 i c Hi Hc). fold l in V1, V2.
    assert (L : forall j, In j l -> j < length ids) by (intros j; apply near_lt).
    destruct l as [|x l]; cbn [map] in V1, V2; [split; [|contradiction]; intros _; destruct V1 as [-> ->], V2 as [-> ->]; auto|].
    split; [discriminate|]. intros _. destruct V1 as [B1 E1], V2 as [B2 E2].
    change (fval F1 x c :: map (fun j => fval F1 j c) l) with (map (fun j => fval F1 j c) (x :: l)) in *.
    change (fval F2 x c :: map (fun j => fval F2 j c) l) with (map (fun j => fval F2 j c) (x :: l)) in *.
    split; [apply B1|split; [apply B2|auto]]; apply Forall_map, Forall_forall; intros j Hj; pose proof (HA j c (L j Hj) Hc); lra. }
  assert (HL : forall i c j, c < C -> In j (near_points D r rows ids crows cids i) -> (fval F1 j c <= fval F2 j c)%R).
  { intros i c j Hc Hj. apply HA; [eapply near_lt, Hj|exact Hc]. }
  split; [|split]; apply below_tables; intros i c Hi Hc Hk; destruct (HV i c Hi Hc) as [H0 H1];
    (destruct (near_points D r rows ids crows cids i) as [|x l] eqn:El; [|destruct (H1 ltac:(discriminate)) as (X1 & X2 & X3 & X4); rewrite <- El in *]).
  - destruct (H0 eq_refl) as [-> _]. lra.
  - eapply max_mono; [|exact X1|exact X2]. intros j Hj. eapply HL; eauto.
  - destruct (H0 eq_refl) as [_ ->]. lra.
  - rewrite X3, X4. apply mean_mono. intros j Hj. eapply HL; eauto.
  - contradiction.
  - rewrite X3. apply mean_le_max; [exact Hk|exact X1].
Qed.

(** C84, global pooling, for every batch element with a point. *)
Lemma C84_global_proof :
  forall dev eps D rows ids B p feats1 feats2 C F1 F2,
    cloud GPU eps D rows ids B p -> given feats1 p C F1 -> given feats2 p C F2 -> not_above (length ids) C F1 F2 ->
    exists mx1 mx2 av1 av2,
      global_max_pooling dev feats1 p false = Ok mx1 /\ global_max_pooling dev feats2 p false = Ok mx2 /\
      global_average_pooling dev feats1 p false = Ok av1 /\ global_average_pooling dev feats2 p false = Ok av2 /\
      forall b c, b < B -> c < C -> In b ids ->
        (tget mx1 [b; c] <= tget mx2 [b; c] /\ tget av1 [b; c] <= tget av2 [b; c] /\ tget av1 [b; c] <= tget mx1 [b; c])%R.
Proof.
  intros dev eps D rows ids B p feats1 feats2 C F1 F2 Hc G1 G2 HA.
  destruct (C31_global_proof dev eps D rows ids B p feats1 C F1 Hc G1) as (m1 & v1 & M1 & A1 & _ & _ & V1 & _).
  destruct (C31_global_proof dev eps D rows ids B p feats2 C F2 Hc G2) as (m2 & v2 & M2 & A2 & _ & _ & V2 & _).
  exists m1, m2, v1, v2. do 4 (split; [assumption|]). intros b c Hb Hcc Hin.
  assert (L : forall j, In j (members ids b) -> (- Q2R flt_max <= fval F1 j c <= fval F2 j c)%R).
  { intros j Hj. unfold members in Hj. apply filter_In in Hj as [Hj _]. apply in_seq in Hj. apply HA; lia. }
  assert (N : members ids b <> []).
  { apply In_nth with (d := 0) in Hin as (j & Hj & Ej). intros E. assert (H : In j (members ids b)); [|rewrite E in H; exact H].
    apply filter_In. split; [apply in_seq; lia|]. now apply Nat.eqb_eq. }
  destruct (V1 b c Hb Hcc Hin) as [X1 Y1], (V2 b c Hb Hcc Hin) as [X2 Y2].
  assert (Z1 : is_max (map (fun j => fval F1 j c) (members ids b)) (tget m1 [b; c])) by (apply X1, Forall_map, Forall_forall; intros j Hj; specialize (L j Hj); lra).
  assert (Z2 : is_max (map (fun j => fval F2 j c) (members ids b)) (tget m2 [b; c])) by (apply X2, Forall_map, Forall_forall; intros j Hj; specialize (L j Hj); lra).
  split; [eapply max_mono; [|exact Z1|exact Z2]; intros j Hj; specialize (L j Hj); lra|]. rewrite Y1, Y2.
  split; [apply mean_mono; intros j Hj; specialize (L j Hj); lra|now apply mean_le_max].
Qed.

(** C84. Without a point within the radius the average, 0, is above the maximum,
    the lowest float. *)
Lemma C84_empty_refuted_proof :
  exists T1 T2,
    near_points 2 1 exN_rows exN_ids exN_centers exN_cids 2 = [] /\
    average_pooling GPU (1#1000) (find_neighbors_tf GPU) (Feat 2 (inr exN_F)) (seg 2 exN_rows exN_ids 2) (seg 2 exN_centers exN_cids 2) (Some [1#1]) false false
    = Ok (Feat 2 (inr T1)) /\
    max_pooling GPU (1#1000) (find_neighbors_tf GPU) (Feat 2 (inr exN_F)) (seg 2 exN_rows exN_ids 2) (seg 2 exN_centers exN_cids 2) (Some [1#1]) false false
    = Ok (Feat 2 (inr T2)) /\
    (fval T2 2 0 < fval T1 2 0)%R.
Proof.
  destruct (C31_local_partial_proof (1#1000) 2 1 exN_rows exN_ids _ exN_centers exN_cids _ [1#1] (Feat 2 (inr exN_F)) 2 exN_F false false exN_workable (or_introl eq_refl) exN_given)
    as (m & v & M & A & V).
  exists (table 5 2 v), (table 5 2 m).
  assert (E : near_points 2 1 exN_rows exN_ids exN_centers exN_cids 2 = []) by (vm_compute; reflexivity).
  split; [exact E|]. split; [exact A|]. split; [exact M|]. rewrite !fval_table by lia.
  specialize (V 2 0 ltac:(cbn; lia) ltac:(lia)). rewrite E in V. cbn [map] in V. destruct V as [-> ->].
  assert (H : (1 <= Q2R flt_max)%R).
  { replace 1%R with (Q2R 1) by (unfold Q2R; cbn; lra). apply Qle_Rle. vm_compute. discriminate. }
  lra.
Qed.

(** * Concrete cases *)
Definition exP_F : list (list R) := map (map (fun x => x + 1)%R) exN_F.
Lemma exP_above : not_above (length exN_ids) 2 exN_F exP_F.
Proof.
  assert (H : (1 <= Q2R flt_max)%R).
  { replace 1%R with (Q2R 1) by (unfold Q2R; cbn; lra). apply Qle_Rle. vm_compute. discriminate. }
  intros j c Hj Hc. cbn in Hj. destruct c as [|[|c]]; [..|lia]; do 6 (destruct j as [|j]; [unfold fval; cbn [nth exP_F exN_F map]; cbn [nth]; try lra|]); try lia.
Qed.
Example C84_local_partial_ex_proof :
  workable (1#1000) 2 1 exN_rows exN_ids (seg 2 exN_rows exN_ids 2) exN_centers exN_cids (seg 2 exN_centers exN_cids 2) /\
  given (Feat 2 (inr exN_F)) (seg 2 exN_rows exN_ids 2) 2 exN_F /\ given (Feat 2 (inr exP_F)) (seg 2 exN_rows exN_ids 2) 2 exP_F /\
  not_above (length exN_ids) 2 exN_F exP_F /\ near_points 2 1 exN_rows exN_ids exN_centers exN_cids 0 = [0].
Proof.
  split; [exact exN_workable|]. split; [exact exN_given|]. split; [split; [reflexivity|split; reflexivity]|]. split; [exact exP_above|vm_compute; reflexivity].
Qed.
Example C84_global_ex_proof :
  cloud GPU (1#1000) 2 exN_rows exN_ids 2 (seg 2 exN_rows exN_ids 2) /\
  given (Feat 2 (inr exN_F)) (seg 2 exN_rows exN_ids 2) 2 exN_F /\ given (Feat 2 (inr exP_F)) (seg 2 exN_rows exN_ids 2) 2 exP_F /\
  not_above (length exN_ids) 2 exN_F exP_F /\ In 0 exN_ids /\ In 1 exN_ids.
Proof.
  split; [apply seg_cloud; repeat constructor|]. split; [exact exN_given|]. split; [split; [reflexivity|split; reflexivity]|]. split; [exact exP_above|].
  cbn; tauto.
Qed.
