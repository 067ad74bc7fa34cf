(** Proofs that the layers are equivariant under reordering and invariant under
    translation in every layout of the output (C32, C33). The statements are copied into PropertiesMoveLayout.v. *)
From Coq Require Import String List Arith ZArith QArith Reals Qreals Lia Lra Bool Permutation.
From Verif Require Import Tensor TensorFacts Spec SpecText TextFacts PointCloud SpecCloud PointCloudFacts QFacts Grid SpecGrid GridFacts
  Neighbors SpecNeighbors NeighborFacts NeighborProofs Neighborhood NeighborhoodFacts NeighborhoodProofs
  Sampling SpecSampling SamplingFacts SamplingProofs Hierarchy SpecHierarchy HierarchyFacts Pdf SpecPdf PdfFacts PdfProofs
  RTensor RTensorFacts Layers SpecLayers LayerFacts LayerLink LayerProofs ConvProofs MoveProofs SpecMoveLayout.
Import ListNotations.
Local Open Scope nat_scope.

Lemma mv_layout D s s' t rows ids crows cids F rows2 ids2 crows2 cids2 F2 :
  moved_pair D s s' t rows ids crows cids F rows2 ids2 crows2 cids2 F2 ->
  forall pout pout2 return_sorted return_padded C f g, (forall i c, i < length cids -> c < C -> g i c = f (nth i s' 0) c) ->
  reordered_layout s' pout pout2 return_sorted return_padded (returned pout return_sorted return_padded C (table (length cids) C f))
    (returned pout2 return_sorted return_padded C (table (length cids2) C g)).
Proof.
  intros HM pout pout2 rs rp C f g H. exists C, (table (length cids) C f).
  split; [unfold table; rewrite map_length, seq_length; pose proof (mv_len _ _ _ _ _ _ _ _ _ _ _ _ _ _ HM); lia|]. split; [reflexivity|].
  f_equal. now apply (mv_table _ _ _ _ _ _ _ _ _ _ _ _ _ _ HM).
Qed.

(** C32, for all layers with neighbors and every layout of the output: if the
    input points (with their features) are reordered by [s], the output points by
    [s'], and both clouds are translated by the same vector, the rows of the output
    are those of the original output in the order [s'], returned in the layout of
    the reordered output cloud; the regularisation loss of KPConv does not change. *)
Lemma C32_layouts_partial_proof :
  forall eps D r s s' t rows ids pin crows cids pout rows2 ids2 pin2 crows2 cids2 pout2 feats feats2 cin F F2 return_sorted return_padded,
    workable eps D r rows ids pin crows cids pout -> workable eps D r rows2 ids2 pin2 crows2 cids2 pout2 ->
    moved_pair D s s' t rows ids crows cids F rows2 ids2 crows2 cids2 F2 ->
    given feats pin cin F -> given feats2 pin2 cin F2 ->
    let search := find_neighbors_tf GPU in let kde := compute_pdf_tf GPU in
    (forall cout mlps sizes act a w b fw layer bandwidth,
       mk_mcconv cin cout D mlps sizes act w b fw = Ok layer -> 0 < cout -> activation act a -> (0 < bandwidth)%R ->
       reordered_layout s' pout pout2 return_sorted return_padded (mcconv_call GPU eps search kde layer feats pin pout r None bandwidth return_sorted return_padded)
                    (mcconv_call GPU eps search kde layer feats2 pin2 pout2 r None bandwidth return_sorted return_padded)) /\
    (forall cout K deformable interpolation wt kernel_points w wo spherical layer influence,
       mk_kpconv cin cout K D deformable interpolation
         (Some (ttab [K; D] (fun idx => match idx with [k; d] => kernel_points k d | _ => 0%R end))) spherical w wo = Ok layer ->
       0 < cin -> 0 < K -> weighting interpolation wt ->
       exists out out2 state state2,
         kpconv_call GPU eps search layer feats pin pout r None influence return_sorted return_padded = (o <- out ;; Ok (o, state)) /\
         kpconv_call GPU eps search layer feats2 pin2 pout2 r None influence return_sorted return_padded = (o <- out2 ;; Ok (o, state2)) /\
         reordered_layout s' pout pout2 return_sorted return_padded out out2 /\ regularization_loss GPU layer state2 = regularization_loss GPU layer state) /\
    (forall cout hidden act a axis bias w w1 b1 w2 b2 bandwidth,
       2 <= length cids -> 0 < cin -> 0 < hidden -> activation act a -> (0 < bandwidth)%R ->
       let layer := mk_pointconv cin cout D hidden act axis bias w w1 b1 w2 b2 in
       reordered_layout s' pout pout2 return_sorted return_padded (pointconv_call GPU eps search kde layer feats pin pout r None bandwidth return_sorted return_padded)
                    (pointconv_call GPU eps search kde layer feats2 pin2 pout2 r None bandwidth return_sorted return_padded)) /\
    reordered_layout s' pout pout2 return_sorted return_padded (max_pooling GPU eps search feats pin pout (Some [r]) return_sorted return_padded)
                 (max_pooling GPU eps search feats2 pin2 pout2 (Some [r]) return_sorted return_padded) /\
    reordered_layout s' pout pout2 return_sorted return_padded (average_pooling GPU eps search feats pin pout (Some [r]) return_sorted return_padded)
                 (average_pooling GPU eps search feats2 pin2 pout2 (Some [r]) return_sorted return_padded).
Proof.
  intros eps D r s s' t rows ids pin crows cids pout rows2 ids2 pin2 crows2 cids2 pout2 feats feats2 cin F F2 return_sorted return_padded W W2 HM Hg Hg2 search kde.
  assert (LF : length F = length ids).
  { destruct Hg as (_ & _ & L). destruct W as [(B' & Hc & _) _ _ _ _ _ _]. pose proof (cloud_is _ _ _ _ _ _ _ Hc) as Hi.
    now rewrite (ic_pts _ _ _ _ _ _ _ Hi), (ic_len _ _ _ _ _ _ _ Hi) in L. }
  pose proof (mv_len _ _ _ _ _ _ _ _ _ _ _ _ _ _ HM) as (L1 & L2 & L3 & L4).
  pose proof HM as (M1 & M2 & _).
  assert (Hdens : forall bw j, j < length ids -> density D (repeat bw D) (repeat r D) rows2 ids2 j = density D (repeat bw D) (repeat r D) rows ids (nth j s 0))
    by (intros bw j Hj; exact (density_moved _ _ _ _ _ _ _ _ _ _ M1 Hj)).
  split; [|split; [|split; [|split]]].
  - intros cout mlps sizes act a w b fw layer bw El Hc Ha Hb. unfold search, kde.
    rewrite (C34_mcconv_partial_proof _ _ _ _ _ _ _ _ _ _ _ _ _ _ _ _ _ _ _ _ _ _ _ _ W El Hc Ha Hg Hb).
    rewrite (C34_mcconv_partial_proof _ _ _ _ _ _ _ _ _ _ _ _ _ _ _ _ _ _ _ _ _ _ _ _ W2 El Hc Ha Hg2 Hb).
    eapply mv_layout; [exact HM|]. intros i c Hi _. apply mk_mcconv_inv in El. destruct El as (_ & _ & Hs & _). eapply mv_mc; eauto.
  - intros cout K de interp wt kp w wo sph layer infl El Hcin HK Hwt.
    destruct (C34_kpconv_partial_proof _ _ _ _ _ _ _ _ _ _ _ _ _ _ _ _ _ _ _ _ _ _ infl return_sorted return_padded W El Hcin HK Hwt Hg) as (st & E & El1).
    destruct (C34_kpconv_partial_proof _ _ _ _ _ _ _ _ _ _ _ _ _ _ _ _ _ _ _ _ _ _ infl return_sorted return_padded W2 El Hcin HK Hwt Hg2) as (st2 & E2 & El2).
    set (sigma := match infl with None => 1%R | Some x => (x / Q2R r)%R end) in *.
    set (start := fun _ k d : nat => (kp k d * (3 / 4))%R) in *.
    assert (Hpos : forall i k d, i < length cids -> k < K -> d < D ->
      (if de then start i k d + kp_formula D r rows2 ids2 crows2 cids2 F2 cin K wo (fun v => wt v sigma) start r i (k * D + d) else start i k d)%R
      = (if de then start (nth i s' 0%nat) k d + kp_formula D r rows ids crows cids F cin K wo (fun v => wt v sigma) start r (nth i s' 0%nat) (k * D + d) else start (nth i s' 0%nat) k d)%R).
    { intros i k d Hi Hk Hd. destruct de; [|reflexivity]. f_equal. eapply mv_kp; eauto. }
    do 4 eexists. split; [exact E|]. split; [exact E2|]. split.
    + destruct (mv_layout D s s' t rows ids crows cids F rows2 ids2 crows2 cids2 F2 HM pout pout2 return_sorted return_padded cout
        (kp_formula D r rows ids crows cids F cin K w (fun v => wt v sigma)
          (fun i k d => if de then (start i k d + kp_formula D r rows ids crows cids F cin K wo (fun v => wt v sigma) start r i (k * D + d))%R else start i k d) r)
        (kp_formula D r rows2 ids2 crows2 cids2 F2 cin K w (fun v => wt v sigma)
          (fun i k d => if de then (start i k d + kp_formula D r rows2 ids2 crows2 cids2 F2 cin K wo (fun v => wt v sigma) start r i (k * D + d))%R else start i k d) r)) as (C & T & ETl & ET & ET2).
      * intros i c Hi Hc. eapply mv_kp; [exact HM|exact LF|exact Hi|]. intros k d Hk Hd. now apply Hpos.
      * exists C, T. split; [exact ETl|]. split; [exact ET|exact ET2].
    + rewrite El1, El2. destruct de; [|reflexivity]. f_equal. f_equal.
      * eapply mv_total; [exact HM|]. intros i Hi. apply sum_over_ext. intros k Hk. apply in_seq in Hk.
        apply rmin_perm. eapply mv_values; [exact HM|exact Hi|]. intros j Hj _. do 2 f_equal. apply norm_ext. intros d Hd.
        rewrite (mv_delta _ _ _ _ _ _ _ _ _ _ _ _ _ _ HM) by auto. f_equal. apply Hpos; auto; lia.
      * eapply mv_total; [exact HM|]. intros i Hi. apply sum_over_ext. intros k Hk. apply sum_over_ext. intros k' Hk'.
        apply in_seq in Hk. apply in_seq in Hk'.
        destruct (k =? k'); [reflexivity|]. f_equal. apply norm_ext. intros d Hd. f_equal; apply Hpos; auto; lia.
  - intros cout hidden act a axis bias w w1 b1 w2 b2 bw Hn Hcin Hh Ha Hb layer. unfold search, kde, layer.
    assert (Hnl : forall (rw : list point) (iw : list nat) cw ciw i, Forall (fun j => j < length iw) (near_points D r rw iw cw ciw i)).
    { intros rw iw cw ciw i. apply Forall_forall. intros j. apply near_lt. }
    rewrite (C34_pointconv_partial_proof _ _ _ _ _ _ _ _ _ _ cout _ _ _ axis bias w w1 b1 w2 b2 _ _ _
      (fun i => red_max (map (density D (repeat bw D) (repeat r D) rows ids) (near_points D r rows ids crows cids i))) _ _ W Hn Hcin Hh Ha Hg Hb).
    2:{ intros i _ Hne. apply dens_max; auto; apply W. }
    rewrite (C34_pointconv_partial_proof _ _ _ _ _ _ _ _ _ _ cout _ _ _ axis bias w w1 b1 w2 b2 _ _ _
      (fun i => red_max (map (density D (repeat bw D) (repeat r D) rows2 ids2) (near_points D r rows2 ids2 crows2 cids2 i))) _ _ W2 ltac:(lia) Hcin Hh Ha Hg2 Hb).
    2:{ intros i _ Hne. apply dens_max; auto; apply W. }
    eapply mv_layout; [exact HM|]. intros i c Hi _. eapply mv_pt; [exact HM|exact LF|exact Hi|intros; now apply Hdens|].
    apply red_max_perm. eapply mv_values; [exact HM|exact Hi|]. intros j Hj _. now apply Hdens.
  - unfold max_pooling, search. erewrite !local_pooling_table by (eauto using red_max_perm).
    eapply mv_layout; [exact HM|]. intros i c Hi _. apply red_max_perm. eapply mv_values; [exact HM|exact Hi|].
    intros j Hj _. eapply mv_fval; eauto.
  - unfold average_pooling, search. erewrite !local_pooling_table by (eauto using red_mean_perm).
    eapply mv_layout; [exact HM|]. intros i c Hi _. apply red_mean_perm. eapply mv_values; [exact HM|exact Hi|].
    intros j Hj _. eapply mv_fval; eauto.
Qed.

Lemma layout_id n p rs rp out out2 : reordered_layout (seq 0 n) p p rs rp out out2 -> out2 = out.
Proof.
  intros (C & T & L & E & E2). rewrite seq_length in L. rewrite E, E2, <- L, TensorFacts.map_nth_seq. reflexivity.
Qed.

(** C32, order of the input. Reordering the input points together with their
    features changes neither the output, in whatever layout, nor the regularisation
    loss of KPConv. *)
Lemma C32_input_order_partial_proof :
  forall eps D r s rows ids pin crows cids pout rows2 ids2 pin2 feats feats2 cin F F2 return_sorted return_padded,
    workable eps D r rows ids pin crows cids pout -> workable eps D r rows2 ids2 pin2 crows cids pout ->
    moved_copy D s (fun _ => 0%Q) rows ids rows2 ids2 -> F2 = map (fun i => nth i F []) s ->
    given feats pin cin F -> given feats2 pin2 cin F2 ->
    let search := find_neighbors_tf GPU in let kde := compute_pdf_tf GPU in
    (forall cout mlps sizes act a w b fw layer bandwidth,
       mk_mcconv cin cout D mlps sizes act w b fw = Ok layer -> 0 < cout -> activation act a -> (0 < bandwidth)%R ->
       mcconv_call GPU eps search kde layer feats2 pin2 pout r None bandwidth return_sorted return_padded =
       mcconv_call GPU eps search kde layer feats pin pout r None bandwidth return_sorted return_padded) /\
    (forall cout K deformable interpolation wt kernel_points w wo spherical layer influence,
       mk_kpconv cin cout K D deformable interpolation
         (Some (ttab [K; D] (fun idx => match idx with [k; d] => kernel_points k d | _ => 0%R end))) spherical w wo = Ok layer ->
       0 < cin -> 0 < K -> weighting interpolation wt ->
       exists out state state2,
         kpconv_call GPU eps search layer feats pin pout r None influence return_sorted return_padded = (o <- out ;; Ok (o, state)) /\
         kpconv_call GPU eps search layer feats2 pin2 pout r None influence return_sorted return_padded = (o <- out ;; Ok (o, state2)) /\
         regularization_loss GPU layer state2 = regularization_loss GPU layer state) /\
    (forall cout hidden act a axis bias w w1 b1 w2 b2 bandwidth,
       2 <= length cids -> 0 < cin -> 0 < hidden -> activation act a -> (0 < bandwidth)%R ->
       let layer := mk_pointconv cin cout D hidden act axis bias w w1 b1 w2 b2 in
       pointconv_call GPU eps search kde layer feats2 pin2 pout r None bandwidth return_sorted return_padded =
       pointconv_call GPU eps search kde layer feats pin pout r None bandwidth return_sorted return_padded) /\
    max_pooling GPU eps search feats2 pin2 pout (Some [r]) return_sorted return_padded =
    max_pooling GPU eps search feats pin pout (Some [r]) return_sorted return_padded /\
    average_pooling GPU eps search feats2 pin2 pout (Some [r]) return_sorted return_padded =
    average_pooling GPU eps search feats pin pout (Some [r]) return_sorted return_padded.
Proof.
  intros eps D r s rows ids pin crows cids pout rows2 ids2 pin2 feats feats2 cin F F2 rs rp W W2 HM HF Hg Hg2 search kde.
  assert (HP : moved_pair D s (seq 0 (length cids)) (fun _ => 0%Q) rows ids crows cids F rows2 ids2 crows cids F2).
  { split; [exact HM|]. split; [|exact HF]. split; [apply Permutation_refl|]. split; [symmetry; apply TensorFacts.map_nth_seq|].
    intros k d Hk Hd. rewrite seq_nth by exact Hk. cbn [plus]. rewrite Qplus_0_r. reflexivity. }
  destruct (C32_layouts_partial_proof eps D r s _ _ rows ids pin crows cids pout rows2 ids2 pin2 crows cids pout feats feats2 cin F F2 rs rp W W2 HP Hg Hg2) as (H1 & H2 & H3 & H4 & H5).
  split; [|split; [|split; [|split]]].
  - intros. eapply layout_id. eapply H1; eauto.
  - intros cout K de interp wt kp w wo sph layer infl El Hc HK Hw. destruct (H2 _ _ _ _ _ _ _ _ _ _ infl El Hc HK Hw) as (o & o2 & st & st2 & E1 & E2 & E3 & E4).
    apply layout_id in E3. subst o2. exists o, st, st2. auto.
  - intros. eapply layout_id. eapply H3; eauto.
  - eapply layout_id. exact H4.
  - eapply layout_id. exact H5.
Qed.

Lemma layout_returned p p2 rs rp C T : same_layout p p2 -> returned p2 rs rp C T = returned p rs rp C T.
Proof.
  destruct p as [pp d bi bs bsh seg ps un ab si], p2 as [pp2 d2 bi2 bs2 bsh2 seg2 ps2 un2 ab2 si2].
  intros (E1 & E2 & E3 & E4 & E5 & E6 & E7 & E8). cbn in *. subst.
  unfold returned, format_output. destruct rp; [|destruct rs; reflexivity].
  unfold get_unflatten; cbn [unflatten]. destruct un as [[? ? ?|w]|]; cbn [apply_unflatten]; [reflexivity| |].
  all: cbn [sidx set_unflatten]; destruct (gather T si); [|reflexivity]; unfold get_sizes, set_psizes, set_unflatten; cbn [psizes bids bsize bshape segshape dim unflatten paabb sidx].
  all: destruct ps; [reflexivity|]; destruct (unique_with_counts Nat.eqb bi) as [u cn]; destruct (gather cn (argsort Nat.leb u)); [|reflexivity];
    destruct bsh as [sh|]; [destruct (reshape _ sh); reflexivity|reflexivity].
Qed.

Lemma translated_layout n p p2 rs rp out out2 : same_layout p p2 -> reordered_layout (seq 0 n) p p2 rs rp out out2 -> out2 = out.
Proof.
  intros HL (C & T & L & E & E2). rewrite seq_length in L. rewrite E, E2, (layout_returned _ _ _ _ _ _ HL), <- L, TensorFacts.map_nth_seq. reflexivity.
Qed.

(** C33, for every layout of the output: translating the input and the output
    points by the same vector changes neither the output of a layer, sorted, padded
    or in the order of the points, nor the regularisation loss of KPConv. *)
Lemma C33_layouts_partial_proof :
  forall eps D r t rows ids pin crows cids pout rows2 pin2 crows2 pout2 feats cin F return_sorted return_padded,
    workable eps D r rows ids pin crows cids pout -> workable eps D r rows2 ids pin2 crows2 cids pout2 ->
    translated D (length ids) t rows rows2 -> translated D (length cids) t crows crows2 ->
    same_layout pout pout2 -> given feats pin cin F -> given feats pin2 cin F ->
    let search := find_neighbors_tf GPU in let kde := compute_pdf_tf GPU in
    (forall cout mlps sizes act a w b fw layer bandwidth,
       mk_mcconv cin cout D mlps sizes act w b fw = Ok layer -> 0 < cout -> activation act a -> (0 < bandwidth)%R ->
       mcconv_call GPU eps search kde layer feats pin2 pout2 r None bandwidth return_sorted return_padded
       = mcconv_call GPU eps search kde layer feats pin pout r None bandwidth return_sorted return_padded) /\
    (forall cout K deformable interpolation wt kernel_points w wo spherical layer influence,
       mk_kpconv cin cout K D deformable interpolation
         (Some (ttab [K; D] (fun idx => match idx with [k; d] => kernel_points k d | _ => 0%R end))) spherical w wo = Ok layer ->
       0 < cin -> 0 < K -> weighting interpolation wt ->
       exists out state state2,
         kpconv_call GPU eps search layer feats pin pout r None influence return_sorted return_padded = (o <- out ;; Ok (o, state)) /\
         kpconv_call GPU eps search layer feats pin2 pout2 r None influence return_sorted return_padded = (o <- out ;; Ok (o, state2)) /\
         regularization_loss GPU layer state2 = regularization_loss GPU layer state) /\
    (forall cout hidden act a axis bias w w1 b1 w2 b2 bandwidth,
       2 <= length cids -> 0 < cin -> 0 < hidden -> activation act a -> (0 < bandwidth)%R ->
       let layer := mk_pointconv cin cout D hidden act axis bias w w1 b1 w2 b2 in
       pointconv_call GPU eps search kde layer feats pin2 pout2 r None bandwidth return_sorted return_padded
       = pointconv_call GPU eps search kde layer feats pin pout r None bandwidth return_sorted return_padded) /\
    max_pooling GPU eps search feats pin2 pout2 (Some [r]) return_sorted return_padded
    = max_pooling GPU eps search feats pin pout (Some [r]) return_sorted return_padded /\
    average_pooling GPU eps search feats pin2 pout2 (Some [r]) return_sorted return_padded
    = average_pooling GPU eps search feats pin pout (Some [r]) return_sorted return_padded.
Proof.
  intros eps D r t rows ids pin crows cids pout rows2 pin2 crows2 pout2 feats cin F rs rp W W2 T1 T2 HL Hg Hg2 search kde.
  assert (LF : length F = length ids).
  { destruct Hg as (_ & _ & L). destruct W as [(B' & Hc & _) _ _ _ _ _ _]. pose proof (cloud_is _ _ _ _ _ _ _ Hc) as Hi.
    now rewrite (ic_pts _ _ _ _ _ _ _ Hi), (ic_len _ _ _ _ _ _ _ Hi) in L. }
  assert (HM : moved_pair D (seq 0 (length ids)) (seq 0 (length cids)) t rows ids crows cids F rows2 ids crows2 cids F).
  { split; [now apply moved_id|]. split; [now apply moved_id|]. rewrite <- LF. symmetry. apply TensorFacts.map_nth_seq. }
  destruct (C32_layouts_partial_proof eps D r _ _ t rows ids pin crows cids pout rows2 ids pin2 crows2 cids pout2 feats feats cin F F rs rp W W2 HM Hg Hg2) as (H1 & H2 & H3 & H4 & H5).
  split; [|split; [|split; [|split]]].
  - intros. eapply translated_layout; [exact HL|]. eapply H1; eauto.
  - intros cout K de interp wt kp w wo sph layer infl El Hc HK Hw. destruct (H2 _ _ _ _ _ _ _ _ _ _ infl El Hc HK Hw) as (o & o2 & st & st2 & E1 & E2 & E3 & E4).
    apply (translated_layout _ _ _ _ _ _ _ HL) in E3. subst o2. exists o, st, st2. auto.
  - intros. eapply translated_layout; [exact HL|]. eapply H3; eauto.
  - eapply translated_layout; [exact HL|]. exact H4.
  - eapply translated_layout; [exact HL|]. exact H5.
Qed.

(** * Concrete cases *)
(** As for C32_layers_partial, with the output sorted: both layouts exist. *)
Example C32_layouts_partial_ex_proof :
  workable (1#1000) 2 1 exN_rows exN_ids (seg 2 exN_rows exN_ids 2) exN_centers exN_cids (seg 2 exN_centers exN_cids 2) /\
  workable (1#1000) 2 1 exM_rows exM_ids (seg 2 exM_rows exM_ids 2) exM_centers exM_cids (seg 2 exM_centers exM_cids 2) /\
  moved_pair 2 [4;1;0;2;5;3] [3;4;0;1;2] (fun d => nth d [1#4; -1#1] 0%Q) exN_rows exN_ids exN_centers exN_cids exN_F
    exM_rows exM_ids exM_centers exM_cids exM_F /\
  forall T, length T = 5 -> returned (seg 2 exN_centers exN_cids 2) true false 1 T = Ok (Feat 1 (inr T)).
Proof.
  destruct C32_layers_partial_ex_proof as (H1 & H2 & H3 & _). split; [exact H1|]. split; [exact H2|]. split; [exact H3|].
  intros T HT. do 6 (destruct T as [|? T]; try discriminate HT). reflexivity.
Qed.

Definition exO_rows := map (fun i => nth i exN_rows []) [4;1;0;2;5;3].
Lemma exO_workable : workable (1#1000) 2 1 exO_rows exM_ids (seg 2 exO_rows exM_ids 2) exN_centers exN_cids (seg 2 exN_centers exN_cids 2).
Proof.
  constructor.
  - exists 2. split; [apply seg_cloud; repeat constructor|]. split; [repeat constructor|].
    exists [4%Z;4%Z]. split; [reflexivity|]. split; [vm_compute; discriminate|]. intros d Hd. destruct d as [|[|d]]; [| |lia]; (split; [cbn; lia|]);
    intros i j Hi Hj _; cbn in Hi, Hj;
    do 6 (destruct i as [|i]; [do 6 (destruct j as [|j]; [vm_compute; discriminate|]); lia|]); lia.
  - exists 0%Q, 2. apply seg_cloud; repeat constructor.
  - lia.
  - reflexivity.
  - split; vm_compute; congruence.
  - split; [discriminate|vm_compute; reflexivity].
  - discriminate.
Qed.
(** The six points in another order, the centers unchanged. *)
Example C32_input_order_partial_ex_proof :
  workable (1#1000) 2 1 exN_rows exN_ids (seg 2 exN_rows exN_ids 2) exN_centers exN_cids (seg 2 exN_centers exN_cids 2) /\
  workable (1#1000) 2 1 exO_rows exM_ids (seg 2 exO_rows exM_ids 2) exN_centers exN_cids (seg 2 exN_centers exN_cids 2) /\
  moved_copy 2 [4;1;0;2;5;3] (fun _ => 0%Q) exN_rows exN_ids exO_rows exM_ids /\
  exM_F = map (fun i => nth i exN_F []) [4;1;0;2;5;3] /\
  given (Feat 2 (inr exN_F)) (seg 2 exN_rows exN_ids 2) 2 exN_F /\
  given (Feat 2 (inr exM_F)) (seg 2 exO_rows exM_ids 2) 2 exM_F.
Proof.
  destruct C32_layers_partial_ex_proof as (H1 & _ & ((P & E & _) & _) & H4 & _).
  split; [exact H1|]. split; [exact exO_workable|]. split; [|split; [reflexivity|split; [exact H4|split; [reflexivity|split; reflexivity]]]].
  split; [exact P|]. split; [exact E|].
  intros k d Hk Hd. cbn in Hk. destruct d as [|[|d]]; [..|lia]; do 6 (destruct k as [|k]; [vm_compute; reflexivity|]); lia.
Qed.

(** Six points in two batch elements and five centers, moved by (1/4, -1). *)
Example C33_layouts_partial_ex_proof :
  workable (1#1000) 2 1 exN_rows exN_ids (seg 2 exN_rows exN_ids 2) exN_centers exN_cids (seg 2 exN_centers exN_cids 2) /\
  workable (1#1000) 2 1 exT_rows exN_ids (seg 2 exT_rows exN_ids 2) exT_centers exN_cids (seg 2 exT_centers exN_cids 2) /\
  translated 2 (length exN_ids) (fun d => nth d [1#4; -1#1] 0%Q) exN_rows exT_rows /\
  translated 2 (length exN_cids) (fun d => nth d [1#4; -1#1] 0%Q) exN_centers exT_centers /\
  same_layout (seg 2 exN_centers exN_cids 2) (seg 2 exT_centers exN_cids 2) /\
  given (Feat 2 (inr exN_F)) (seg 2 exN_rows exN_ids 2) 2 exN_F /\
  given (Feat 2 (inr exN_F)) (seg 2 exT_rows exN_ids 2) 2 exN_F.
Proof.
  destruct C33_translation_partial_ex_proof as (H1 & H2 & H3 & H4).
  split; [exact exN_workable|]. split; [exact H1|]. split; [exact H2|]. split; [exact H3|].
  split; [repeat split|]. split; [exact exN_given|exact H4].
Qed.
