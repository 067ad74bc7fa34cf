(** Proofs that a larger radius loses no neighbor (C85). The statements are
    copied into PropertiesRadius.v. *)
From Coq Require Import String List Arith ZArith QArith Reals Qreals Lia Lra Bool Permutation.
From Verif Require Import Tensor TensorFacts Spec SpecText TextFacts PointCloud SpecCloud PointCloudFacts QFacts Grid SpecGrid GridFacts
  Neighbors SpecNeighbors NeighborFacts NeighborProofs Neighborhood NeighborhoodFacts NeighborhoodProofs
  Sampling SpecSampling SamplingFacts SamplingProofs Hierarchy SpecHierarchy HierarchyFacts Pdf SpecPdf PdfFacts PdfProofs
  RTensor RTensorFacts Layers SpecLayers LayerFacts LayerLink LayerProofs ConvProofs MoveProofs BlockFacts SpecLinear LinearProofs SpecMonotone MonotoneProofs.
Import ListNotations.
Local Open Scope nat_scope.

Lemma square_le (a b : Q) : (0 <= a)%Q -> (a <= b)%Q -> (a * a <= b * b)%Q.
Proof.
  intros H0 H. apply Qle_trans with (b * a)%Q; [now apply Qmult_le_compat_r|]. rewrite (Qmult_comm b a).
  apply Qmult_le_compat_r; [exact H|]. now apply Qle_trans with a.
Qed.

Lemma near_points_mono D r1 r2 rows ids crows cids i : (0 <= r1)%Q -> (r1 <= r2)%Q ->
  incl (near_points D r1 rows ids crows cids i) (near_points D r2 rows ids crows cids i).
Proof.
  intros H0 H j. unfold near_points. rewrite !filter_In. intros [Hj Hd]. split; [exact Hj|].
  apply andb_true_iff in Hd as [He Hd]. rewrite He. cbn [andb]. apply negb_true_iff in Hd. apply negb_true_iff.
  destruct (Qle_bool (r2 * r2) (dist2 D (nth j rows []) (nth i crows []))) eqn:E; [|reflexivity].
  rewrite <- Hd. symmetry. apply Qle_bool_iff. apply Qle_bool_iff in E. eapply Qle_trans; [|exact E]. now apply square_le.
Qed.

(** C85, neighborhoods: every pair of a point and a center found with the radius
    [r1] is found with the radius [r2], if [r2] is not smaller. *)
Lemma C85_neighbors_partial_proof :
  forall eps D rows ids B cs1 g1 cs2 g2 ceps crows cids CB cp radii1 radii2 max_neighbors,
    usable eps D rows ids B cs1 g1 -> usable eps D rows ids B cs2 g2 -> cloud GPU ceps D crows cids CB cp ->
    cids <> [] -> Forall (fun b => b < B) cids -> radii_match D radii1 cs1 -> radii_match D radii2 cs2 ->
    let r1 := nth 0 (all_dims D radii1) 0%Q in
    let r2 := nth 0 (all_dims D radii2) 0%Q in
    (0 <= r1)%Q -> (r1 <= r2)%Q ->
    exists n1 n2,
      snd (mk_nbh (find_neighbors_tf GPU) g1 radii1 (Some cp) max_neighbors) = Ok n1 /\
      snd (mk_nbh (find_neighbors_tf GPU) g2 radii2 (Some cp) max_neighbors) = Ok n2 /\
      NoDup (norig n1) /\ NoDup (norig n2) /\ incl (norig n1) (norig n2) /\ length (norig n1) <= length (norig n2).
Proof.
  intros eps D rows ids B cs1 g1 cs2 g2 ceps crows cids CB cp radii1 radii2 mx U1 U2 Hc Hne HB M1 M2 r1 r2 H0 H.
  destruct (C19_original_ids_partial_proof eps D rows ids B cs1 g1 ceps crows cids CB cp radii1 mx U1 Hc Hne HB M1) as [(n1 & E1 & D1 & I1) _].
  destruct (C19_original_ids_partial_proof eps D rows ids B cs2 g2 ceps crows cids CB cp radii2 mx U2 Hc Hne HB M2) as [(n2 & E2 & D2 & I2) _].
  exists n1, n2. do 4 (split; [assumption|]).
  assert (X : incl (norig n1) (norig n2)).
  { intros [j i] Hi. apply I2. apply I1 in Hi. destruct Hi as (A1 & A2 & A3 & A4). split; [exact A1|]. split; [exact A2|]. split; [exact A3|].
    eapply Qlt_le_trans; [exact A4|]. now apply square_le. }
  split; [exact X|]. now apply NoDup_incl_length.
Qed.

(** C85, max pooling: with a larger radius no maximum is smaller. *)
Lemma C85_pooling_partial_proof :
  forall eps D r1 r2 rows ids pin crows cids pout feats C F return_sorted return_padded,
    workable eps D r1 rows ids pin crows cids pout -> workable eps D r2 rows ids pin crows cids pout -> (r1 <= r2)%Q ->
    given feats pin C F -> not_above (length ids) C F F ->
    let largest := fun r => max_pooling GPU eps (find_neighbors_tf GPU) feats pin pout (Some [r]) return_sorted return_padded in
    outputs_below pout return_sorted return_padded (length cids) C (fun _ => True) (largest r1) (largest r2).
Proof.
  intros eps D r1 r2 rows ids pin crows cids pout feats C F rs rp W1 W2 Hr G HA largest.
  destruct (C31_local_partial_proof eps D r1 rows ids pin crows cids pout [r1] feats C F rs rp W1 (or_introl eq_refl) G) as (m1 & v1 & M1 & _ & V1).
  destruct (C31_local_partial_proof eps D r2 rows ids pin crows cids pout [r2] feats C F rs rp W2 (or_introl eq_refl) G) as (m2 & v2 & M2 & _ & V2).
  unfold largest. rewrite M1, M2. apply below_tables. intros i c Hi Hc _. specialize (V1 i c Hi Hc). specialize (V2 i c Hi Hc).
  pose proof (near_points_mono D r1 r2 rows ids crows cids i (Qlt_le_weak _ _ (wk_radius _ _ _ _ _ _ _ _ _ W1)) Hr) as HI.
  assert (L : forall r j, In j (near_points D r rows ids crows cids i) -> (- Q2R flt_max <= fval F j c)%R).
  { intros r j Hj. apply (HA j c); [eapply near_lt, Hj|exact Hc]. }
  assert (P1 : near_points D r1 rows ids crows cids i <> [] -> is_max (map (fun j => fval F j c) (near_points D r1 rows ids crows cids i)) (m1 i c)).
  { intros N. specialize (L r1). destruct (near_points D r1 rows ids crows cids i) as [|x l]; [contradiction|]. apply V1. apply Forall_map, Forall_forall, L. }
  assert (P2 : near_points D r2 rows ids crows cids i <> [] -> is_max (map (fun j => fval F j c) (near_points D r2 rows ids crows cids i)) (m2 i c)).
  { intros N. specialize (L r2). destruct (near_points D r2 rows ids crows cids i) as [|x l]; [contradiction|]. apply V2. apply Forall_map, Forall_forall, L. }
  assert (Low : (- Q2R flt_max <= m2 i c)%R).
  { pose proof (L r2) as L2. destruct (near_points D r2 rows ids crows cids i) as [|x l] eqn:E2; [destruct V2 as [-> _]; lra|].
    destruct (P2 ltac:(discriminate)) as [Hin _]. apply in_map_iff in Hin as (j & <- & Hj). now apply L2. }
  destruct (near_points D r1 rows ids crows cids i) as [|x l] eqn:E1; [destruct V1 as [-> _]; exact Low|].
  destruct (P1 ltac:(discriminate)) as [Hin _]. apply in_map_iff in Hin as (j & <- & Hj).
  destruct P2 as [_ HF]; [intros E; rewrite E in HI; exact (HI x (or_introl eq_refl))|].
  rewrite Forall_forall in HF. apply HF. apply in_map_iff. exists j. split; [reflexivity|]. now apply HI.
Qed.

(** * Concrete cases *)
Lemma exN_self_workable r : (0 < r)%Q -> few_cells (1#1000) 2 (repeat r 2) 2 (exN_rows, exN_ids) ->
  workable (1#1000) 2 r exN_rows exN_ids (seg 2 exN_rows exN_ids 2) exN_rows exN_ids (seg 2 exN_rows exN_ids 2).
Proof.
  intros Hr HF. constructor.
  - exists 2. split; [apply seg_cloud; repeat constructor|]. split; [repeat constructor|exact HF].
  - exists 0%Q, 2. apply seg_cloud; repeat constructor.
  - lia.
  - exact Hr.
  - split; vm_compute; congruence.
  - split; [discriminate|vm_compute; reflexivity].
  - discriminate.
Qed.
Ltac few nc := exists nc; split; [reflexivity|]; split; [vm_compute; discriminate|]; intros d Hd; destruct d as [|[|d]]; [| |lia]; (split; [cbn; lia|]);
    intros i j Hi Hj _; cbn in Hi, Hj;
    do 6 (destruct i as [|i]; [do 6 (destruct j as [|j]; [vm_compute; discriminate|]); lia|]); lia.
Lemma exN_small : workable (1#1000) 2 (1#4) exN_rows exN_ids (seg 2 exN_rows exN_ids 2) exN_rows exN_ids (seg 2 exN_rows exN_ids 2).
Proof. apply exN_self_workable; [reflexivity|]. few [16%Z;16%Z]. Qed.
Lemma exN_large : workable (1#1000) 2 1 exN_rows exN_ids (seg 2 exN_rows exN_ids 2) exN_rows exN_ids (seg 2 exN_rows exN_ids 2).
Proof. apply exN_self_workable; [reflexivity|]. few [4%Z;4%Z]. Qed.

Lemma exN_not_above : not_above (length exN_ids) 2 exN_F exN_F.
Proof. intros j c Hj Hc. pose proof (exP_above j c Hj Hc). lra. Qed.

(** C85. An average can go down with a larger radius: in the point 1 it is 3 with
    the radius 1/4 and 2 with the radius 1. *)
Lemma C85_average_refuted_proof :
  exists T1 T2,
    let average := fun r => average_pooling GPU (1#1000) (find_neighbors_tf GPU) (Feat 2 (inr exN_F)) (seg 2 exN_rows exN_ids 2) (seg 2 exN_rows exN_ids 2)
      (Some [r]) false false in
    average (1#4) = Ok (Feat 2 (inr T1)) /\ average (1#1) = Ok (Feat 2 (inr T2)) /\ fval T1 1 0 = 3%R /\ fval T2 1 0 = 2%R.
Proof.
  destruct (C31_local_partial_proof (1#1000) 2 (1#4) exN_rows exN_ids _ exN_rows exN_ids _ [1#4] (Feat 2 (inr exN_F)) 2 exN_F false false exN_small (or_introl eq_refl) exN_given)
    as (m1 & v1 & _ & A1 & V1).
  destruct (C31_local_partial_proof (1#1000) 2 1 exN_rows exN_ids _ exN_rows exN_ids _ [1#1] (Feat 2 (inr exN_F)) 2 exN_F false false exN_large (or_introl eq_refl) exN_given)
    as (m2 & v2 & _ & A2 & V2).
  exists (table 6 2 v1), (table 6 2 v2). split; [exact A1|]. split; [exact A2|]. rewrite !fval_table by lia.
  specialize (V1 1 0 ltac:(cbn; lia) ltac:(lia)). specialize (V2 1 0 ltac:(cbn; lia) ltac:(lia)).
  assert (E1 : near_points 2 (1#4) exN_rows exN_ids exN_rows exN_ids 1 = [1]) by (vm_compute; reflexivity).
  assert (E2 : near_points 2 1 exN_rows exN_ids exN_rows exN_ids 1 = [0; 1]) by (vm_compute; reflexivity).
  rewrite E1 in V1. rewrite E2 in V2. cbn [map] in V1, V2. destruct V1 as [_ ->], V2 as [_ ->].
  unfold mean, fval, exN_F. cbn [nth length fold_right INR]. lra.
Qed.

Example C85_pooling_partial_ex_proof :
  workable (1#1000) 2 (1#4) exN_rows exN_ids (seg 2 exN_rows exN_ids 2) exN_rows exN_ids (seg 2 exN_rows exN_ids 2) /\
  workable (1#1000) 2 1 exN_rows exN_ids (seg 2 exN_rows exN_ids 2) exN_rows exN_ids (seg 2 exN_rows exN_ids 2) /\
  given (Feat 2 (inr exN_F)) (seg 2 exN_rows exN_ids 2) 2 exN_F /\ not_above (length exN_ids) 2 exN_F exN_F /\
  near_points 2 (1#4) exN_rows exN_ids exN_rows exN_ids 0 = [0] /\ near_points 2 1 exN_rows exN_ids exN_rows exN_ids 0 = [0; 1].
Proof.
  split; [exact exN_small|]. split; [exact exN_large|]. split; [exact exN_given|]. split; [exact exN_not_above|]. split; vm_compute; reflexivity.
Qed.

Example C85_neighbors_partial_ex_proof :
  exists g1 n1 g2 n2,
    usable (1#1000) 2 exN_rows exN_ids 2 [1#4] g1 /\ radii_match 2 [1#4] [1#4] /\
    usable (1#1000) 2 exN_rows exN_ids 2 [1#1] g2 /\ radii_match 2 [1#1] [1#1] /\
    snd (mk_nbh (find_neighbors_tf GPU) g1 [1#4] (Some (seg 2 exN_rows exN_ids 2)) 0) = Ok n1 /\
    snd (mk_nbh (find_neighbors_tf GPU) g2 [1#1] (Some (seg 2 exN_rows exN_ids 2)) 0) = Ok n2 /\
    length (norig n1) = 6 /\ length (norig n2) = 10.
Proof.
  destruct (mk_grid GPU (1#1000) (seg 2 exN_rows exN_ids 2) [1#4]) as [g1|] eqn:Eg; [|vm_compute in Eg; discriminate].
  destruct exN_usable as (g2 & U2 & M2 & Eg2).
  assert (U1 : usable (1#1000) 2 exN_rows exN_ids 2 [1#4] g1).
  { constructor.
    + eapply grid_new; [|exact Eg]. apply seg_cloud; repeat constructor.
    + split; [reflexivity|repeat constructor].
    + lia.
    + discriminate.
    + left; reflexivity.
    + cbn. lia.
    + vm_compute in Eg. inversion Eg; subst g1. vm_compute. discriminate. }
  assert (X1 : exists n1, snd (mk_nbh (find_neighbors_tf GPU) g1 [1#4] (Some (seg 2 exN_rows exN_ids 2)) 0) = Ok n1 /\ length (norig n1) = 6).
  { clear U1. vm_compute in Eg. inversion Eg; subst g1. eexists. split; [vm_compute; reflexivity|]. reflexivity. }
  assert (X2 : exists n2, snd (mk_nbh (find_neighbors_tf GPU) g2 [1#1] (Some (seg 2 exN_rows exN_ids 2)) 0) = Ok n2 /\ length (norig n2) = 10).
  { clear U1 U2 X1. vm_compute in Eg2. inversion Eg2; subst g2. eexists. split; [vm_compute; reflexivity|]. reflexivity. }
  destruct X1 as (n1 & E1 & L1), X2 as (n2 & E2 & L2). exists g1, n1, g2, n2.
  split; [exact U1|]. split; [repeat split; try reflexivity; discriminate|]. split; [exact U2|]. split; [exact M2|]. auto.
Qed.
