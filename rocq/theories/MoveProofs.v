(** Proofs that the layers are equivariant under reordering and invariant
    under translation (C32, C33). The statements are copied verbatim into
    PropertiesMove.v. *)
From Coq Require Import String List Arith ZArith QArith Reals Qreals Lia Lra Bool Permutation.
From Verif Require Import Tensor TensorFacts Spec SpecText TextFacts PointCloud SpecCloud PointCloudFacts QFacts Grid SpecGrid GridFacts
  Neighbors SpecNeighbors NeighborFacts NeighborProofs Neighborhood NeighborhoodFacts NeighborhoodProofs
  Sampling SpecSampling SamplingFacts SamplingProofs Hierarchy SpecHierarchy HierarchyFacts Pdf SpecPdf PdfFacts PdfProofs
  RTensor RTensorFacts Layers SpecLayers LayerFacts LayerLink LayerProofs ConvProofs.
Import ListNotations.
Local Open Scope nat_scope.

Section Moved.
  Context (D : nat) (r : Q) (s s' : list nat) (t : nat -> Q)
    (rows : list point) (ids : list nat) (crows : list point) (cids : list nat) (F : list (list R))
    (rows2 : list point) (ids2 : list nat) (crows2 : list point) (cids2 : list nat) (F2 : list (list R)).
  Context (HM : moved_pair D s s' t rows ids crows cids F rows2 ids2 crows2 cids2 F2).

  Lemma mv_len : length s = length ids /\ length ids2 = length ids /\ length s' = length cids /\ length cids2 = length cids.
  Proof using HM.
    destruct HM as ((P & Ei & _) & (P' & Ei' & _) & _).
    assert (L : forall q (l : list nat), Permutation q (seq 0 (length l)) -> length q = length l)
      by (intros q l Hq; rewrite (Permutation_length Hq); apply seq_length).
    rewrite Ei, Ei', !map_length. auto.
  Qed.
  Lemma mv_nth (q l : list nat) k : k < length q -> nth k (map (fun i => nth i l 0) q) 0 = nth (nth k q 0) l 0.
  Proof using.
    intros Hk. rewrite (nth_indep _ 0 (nth 0 l 0)) by (rewrite map_length; lia). apply (map_nth (fun i => nth i l 0)).
  Qed.
  Lemma mv_dist j i : j < length ids -> i < length cids ->
    (dist2 D (nth j rows2 []) (nth i crows2 []) == dist2 D (nth (nth j s 0%nat) rows []) (nth (nth i s' 0%nat) crows []))%Q.
  Proof using HM.
    destruct HM as ((_ & _ & H) & (_ & _ & H') & _). intros Hj Hi. unfold dist2.
    assert (E : forall l, (forall d, In d l -> d < D) ->
      (fold_right Qplus 0 (map (fun d => (nth d (nth j rows2 []) 0 - nth d (nth i crows2 []) 0) * (nth d (nth j rows2 []) 0 - nth d (nth i crows2 []) 0)) l)
      == fold_right Qplus 0 (map (fun d => (nth d (nth (nth j s 0%nat) rows []) 0 - nth d (nth (nth i s' 0%nat) crows []) 0) * (nth d (nth (nth j s 0%nat) rows []) 0 - nth d (nth (nth i s' 0%nat) crows []) 0)) l))%Q).
    { induction l as [|d l IH]; intros Hl; [reflexivity|]. cbn. rewrite IH by (intros; apply Hl; now right).
      specialize (Hl d (or_introl eq_refl)).
      pose proof (H j d Hj Hl) as H1. pose proof (H' i d Hi Hl) as H2. unfold xc in H1, H2. rewrite H1, H2. ring. }
    apply E. intros d Hd. apply in_seq in Hd. lia.
  Qed.
  Lemma mv_delta j i d : j < length ids -> i < length cids -> d < D ->
    delta rows2 crows2 j i d = delta rows crows (nth j s 0) (nth i s' 0) d.
  Proof using HM.
    destruct HM as ((_ & _ & H) & (_ & _ & H') & _). intros Hj Hi Hd. unfold delta.
    pose proof (Qeq_eqR _ _ (H j d Hj Hd)) as H1. pose proof (Qeq_eqR _ _ (H' i d Hi Hd)) as H2.
    rewrite H1, H2, !Q2R_plus. ring.
  Qed.
  Lemma mv_fval j c : length F = length ids -> j < length ids -> fval F2 j c = fval F (nth j s 0) c.
  Proof using HM.
    pose proof mv_len as (L & _). destruct HM as (_ & _ & E). intros LF Hj. unfold fval. rewrite E.
    rewrite (nth_indep _ [] (nth 0 F [])) by (rewrite map_length; lia).
    now rewrite (map_nth (fun i => nth i F [])).
  Qed.
  Lemma near_lt (rw : list point) (iw : list nat) cw ciw i j : In j (near_points D r rw iw cw ciw i) -> j < length iw.
  Proof using. unfold near_points. intros H. apply filter_In in H as [H _]. apply in_seq in H. lia. Qed.

  Lemma mv_near i : i < length cids ->
    Permutation (map (fun j => nth j s 0) (near_points D r rows2 ids2 crows2 cids2 i)) (near_points D r rows ids crows cids (nth i s' 0)).
  Proof using HM.
    intros Hi. pose proof mv_len as (L1 & L2 & L3 & L4). pose proof mv_dist as Hd.
    destruct HM as ((P & Ei & _) & (P' & Ei' & _) & _).
    assert (Hs : NoDup s) by (apply (Permutation_NoDup (Permutation_sym P)), seq_NoDup).
    assert (Hiff : forall j, j < length ids -> (Nat.eqb (nth j ids2 0) (nth i cids2 0) &&
        negb (Qle_bool (r * r)%Q (dist2 D (nth j rows2 []) (nth i crows2 []))))
      = (Nat.eqb (nth (nth j s 0) ids 0) (nth (nth i s' 0) cids 0) &&
        negb (Qle_bool (r * r)%Q (dist2 D (nth (nth j s 0) rows []) (nth (nth i s' 0) crows []))))).
    { intros j Hj. rewrite Ei, Ei', !mv_nth by lia. now rewrite (Hd j i Hj Hi). }
    assert (Hr : forall j, j < length ids -> nth j s 0 < length ids).
    { intros j Hj. assert (Hin : In (nth j s 0) s) by (apply nth_In; lia). apply (Permutation_in _ P), in_seq in Hin. lia. }
    unfold near_points. apply NoDup_Permutation.
    - apply NoDup_map_inj_in; [|apply TensorFacts.NoDup_filter, seq_NoDup]. intros a b Ha Hb E.
      apply filter_In in Ha as [Ha _], Hb as [Hb _]. apply in_seq in Ha. apply in_seq in Hb.
      apply (NoDup_nth s 0); [exact Hs|lia..|exact E].
    - apply TensorFacts.NoDup_filter, seq_NoDup.
    - intros j. rewrite in_map_iff, filter_In. split.
      + intros (a & <- & Ha). apply filter_In in Ha as [Ha Hb]. apply in_seq in Ha. rewrite Hiff in Hb by lia.
        split; [apply in_seq; specialize (Hr a); lia|exact Hb].
      + intros [Hj Hb]. assert (Hin : In j s) by (apply (Permutation_in _ (Permutation_sym P)); exact Hj).
        apply (In_nth _ _ 0) in Hin as (a & Ha & <-). exists a. split; [reflexivity|]. apply filter_In.
        split; [apply in_seq; lia|]. rewrite Hiff by lia. exact Hb.
  Qed.

  Lemma mv_values {A} (G G' : nat -> A) i : i < length cids ->
    (forall j, j < length ids -> In j (near_points D r rows2 ids2 crows2 cids2 i) -> G' j = G (nth j s 0)) ->
    Permutation (map G' (near_points D r rows2 ids2 crows2 cids2 i)) (map G (near_points D r rows ids crows cids (nth i s' 0))).
  Proof using HM.
    intros Hi HG. rewrite <- (Permutation_map G (mv_near i Hi)), map_map.
    erewrite map_ext_in; [reflexivity|]. intros j Hj. pose proof (near_lt _ _ _ _ _ _ Hj). pose proof mv_len. apply HG; [lia|exact Hj].
  Qed.
  Lemma mv_sum (G G' : nat -> R) i : i < length cids ->
    (forall j, j < length ids -> G' j = G (nth j s 0)) ->
    sum_over (near_points D r rows2 ids2 crows2 cids2 i) G' = sum_over (near_points D r rows ids crows cids (nth i s' 0)) G.
  Proof using HM.
    intros Hi HG. unfold sum_over. change (fold_right Rplus 0%R) with rsum. apply rsum_perm, mv_values; [exact Hi|]. intros; now apply HG.
  Qed.
  Lemma mv_center i : i < length cids -> nth i s' 0 < length cids.
  Proof using HM.
    pose proof mv_len as (_ & _ & L & _). destruct HM as (_ & (P & _) & _). intros Hi.
    assert (Hin : In (nth i s' 0) s') by (apply nth_In; lia). apply (Permutation_in _ P), in_seq in Hin. lia.
  Qed.

  Lemma mv_table C f g : (forall i c, i < length cids -> c < C -> g i c = f (nth i s' 0) c) ->
    table (length cids2) C g = map (fun i => nth i (table (length cids) C f) []) s'.
  Proof using HM.
    intros H. pose proof mv_len as (_ & _ & L3 & L4). rewrite L4. unfold table.
    rewrite <- (TensorFacts.map_nth_seq s' 0) at 1. rewrite L3, map_map. apply map_ext_in. intros i Hi. apply in_seq in Hi.
    rewrite nth_map_seq by (apply mv_center; lia). apply map_ext_in. intros c Hc. apply in_seq in Hc. apply H; lia.
  Qed.
  Lemma mv_returned pout pout2 C f g : (forall i c, i < length cids -> c < C -> g i c = f (nth i s' 0) c) ->
    reordered s' (returned pout false false C (table (length cids) C f)) (returned pout2 false false C (table (length cids2) C g)).
  Proof using HM.
    intros H. exists C, (table (length cids) C f). unfold returned. cbn [format_output snd].
    split; [unfold table; rewrite map_length, seq_length; pose proof mv_len; lia|]. split; [reflexivity|].
    do 3 f_equal. now apply mv_table.
  Qed.

  Lemma mv_mc (LF : length F = length ids) cin cout mlps sizes a w b fw rr dens dens2 i o : sizes <> [] -> i < length cids ->
    (forall j, j < length ids -> dens2 j i = dens (nth j s 0) (nth i s' 0)) ->
    mc_formula D r rows2 ids2 crows2 cids2 F2 cin cout mlps sizes a w b fw rr dens2 i o
    = mc_formula D r rows ids crows cids F cin cout mlps sizes a w b fw rr dens (nth i s' 0) o.
  Proof using HM.
    intros Hs Hi Hd. unfold mc_formula, weighted_sum. apply sum_over_ext. intros c _. apply sum_over_ext. intros h Hh. apply in_seq in Hh.
    f_equal. apply mv_sum; [exact Hi|]. intros j Hj. rewrite mv_fval, Hd by auto. do 2 f_equal.
    apply mlp_ext; [intros d Hd'; now rewrite mv_delta|]. destruct sizes; [contradiction|]. rewrite !last_cons_nat in *. lia.
  Qed.
  Lemma norm_ext n x y : (forall d, d < n -> x d = y d) -> norm n x = norm n y.
  Proof using.
    intros H. unfold norm. f_equal. apply sum_over_ext. intros d Hd. apply in_seq in Hd. now rewrite H by lia.
  Qed.
  Lemma mv_kp (LF : length F = length ids) cin K w wt kpt kpt2 rr i o : i < length cids ->
    (forall k d, k < K -> d < D -> kpt2 i k d = kpt (nth i s' 0) k d) ->
    kp_formula D r rows2 ids2 crows2 cids2 F2 cin K w wt kpt2 rr i o
    = kp_formula D r rows ids crows cids F cin K w wt kpt rr (nth i s' 0) o.
  Proof using HM.
    intros Hi Hk. unfold kp_formula, weighted_sum. apply sum_over_ext. intros c _. apply sum_over_ext. intros k Hk'.
    apply in_seq in Hk'. f_equal. apply mv_sum; [exact Hi|]. intros j Hj. rewrite mv_fval by auto. do 2 f_equal.
    apply norm_ext. intros d Hd. rewrite mv_delta, Hk by (auto; lia). reflexivity.
  Qed.
  Lemma mv_pt (LF : length F = length ids) cin H a axis bias w w1 b1 w2 b2 dens dens2 mx mx2 i o : i < length cids ->
    (forall j, j < length ids -> dens2 j i = dens (nth j s 0) (nth i s' 0)) -> mx2 i = mx (nth i s' 0) ->
    pt_formula D r rows2 ids2 crows2 cids2 F2 cin H a axis bias w w1 b1 w2 b2 dens2 mx2 i o
    = pt_formula D r rows ids crows cids F cin H a axis bias w w1 b1 w2 b2 dens mx (nth i s' 0) o.
  Proof using HM.
    intros Hi Hd Hm. unfold pt_formula, weighted_sum. apply sum_over_ext. intros c _. apply sum_over_ext. intros h _.
    f_equal. apply mv_sum; [exact Hi|]. intros j Hj. rewrite mv_fval, Hd, Hm by auto. do 4 f_equal.
    apply sum_over_ext. intros d Hd'. apply in_seq in Hd'. now rewrite mv_delta by (auto; lia).
  Qed.
  (** Sum over all centers. *)
  Lemma mv_total f g : (forall i, i < length cids -> g i = f (nth i s' 0)) ->
    sum_over (seq 0 (length cids2)) g = sum_over (seq 0 (length cids)) f.
  Proof using HM.
    intros H. pose proof mv_len as (_ & _ & L3 & L4). rewrite L4. destruct HM as (_ & (P & _) & _).
    transitivity (sum_over s' f).
    - rewrite <- (TensorFacts.map_nth_seq s' 0). rewrite L3. unfold sum_over. rewrite map_map. f_equal. apply map_ext_in.
      intros i Hi. apply in_seq in Hi. apply H. lia.
    - unfold sum_over. change (fold_right Rplus 0%R) with rsum. apply rsum_perm, Permutation_map, P.
  Qed.
End Moved.

Lemma dens_max D r rows ids bw l : 2 <= D -> (0 < r)%Q -> (0 < bw)%R -> Forall (fun j => j < length ids) l -> l <> [] ->
  is_max (map (density D (repeat bw D) (repeat r D) rows ids) l) (red_max (map (density D (repeat bw D) (repeat r D) rows ids) l)).
Proof.
  intros HD Hr Hb HF Hne. apply red_max_ok.
  - intros E. apply map_eq_nil in E. auto.
  - apply Forall_map, Forall_forall. intros j Hj. apply Rle_trans with 0%R.
    + unfold rlowest. assert (0 <= Q2R flt_max)%R; [|lra]. replace 0%R with (Q2R 0) by (unfold Q2R; cbn; lra).
      apply Qle_Rle. unfold flt_max. vm_compute. discriminate.
    + apply Rlt_le, density_pos.
      * apply repeat_length.
      * apply Forall_forall. intros x Hx. apply repeat_spec in Hx. now subst.
      * now rewrite nth_repeat_lt by lia.
      * rewrite Forall_forall in HF. auto.
Qed.

(** C32 and C33, for all layers with neighbors: if the input points (with their
    features) are reordered by [s], the output points by [s'], and both clouds
    are translated by the same vector, the rows of the output are those of the
    original output in the order [s']; the regularisation loss of KPConv does
    not change. *)
Lemma C32_layers_partial_proof :
  forall eps D r s s' t rows ids pin crows cids pout rows2 ids2 pin2 crows2 cids2 pout2 feats feats2 cin F F2,
    workable eps D r rows ids pin crows cids pout -> workable eps D r rows2 ids2 pin2 crows2 cids2 pout2 ->
    moved_pair D s s' t rows ids crows cids F rows2 ids2 crows2 cids2 F2 ->
    given feats pin cin F -> given feats2 pin2 cin F2 ->
    let search := find_neighbors_tf GPU in let kde := compute_pdf_tf GPU in
    (forall cout mlps sizes act a w b fw layer bandwidth,
       mk_mcconv cin cout D mlps sizes act w b fw = Ok layer -> 0 < cout -> activation act a -> (0 < bandwidth)%R ->
       reordered s' (mcconv_call GPU eps search kde layer feats pin pout r None bandwidth false false)
                    (mcconv_call GPU eps search kde layer feats2 pin2 pout2 r None bandwidth false false)) /\
    (forall cout K deformable interpolation wt kernel_points w wo spherical layer influence,
       mk_kpconv cin cout K D deformable interpolation
         (Some (ttab [K; D] (fun idx => match idx with [k; d] => kernel_points k d | _ => 0%R end))) spherical w wo = Ok layer ->
       0 < cin -> 0 < K -> weighting interpolation wt ->
       exists o o2 state state2,
         kpconv_call GPU eps search layer feats pin pout r None influence false false = Ok (o, state) /\
         kpconv_call GPU eps search layer feats2 pin2 pout2 r None influence false false = Ok (o2, state2) /\
         reordered s' (Ok o) (Ok o2) /\ regularization_loss GPU layer state2 = regularization_loss GPU layer state) /\
    (forall cout hidden act a axis bias w w1 b1 w2 b2 bandwidth,
       2 <= length cids -> 0 < cin -> 0 < hidden -> activation act a -> (0 < bandwidth)%R ->
       let layer := mk_pointconv cin cout D hidden act axis bias w w1 b1 w2 b2 in
       reordered s' (pointconv_call GPU eps search kde layer feats pin pout r None bandwidth false false)
                    (pointconv_call GPU eps search kde layer feats2 pin2 pout2 r None bandwidth false false)) /\
    reordered s' (max_pooling GPU eps search feats pin pout (Some [r]) false false)
                 (max_pooling GPU eps search feats2 pin2 pout2 (Some [r]) false false) /\
    reordered s' (average_pooling GPU eps search feats pin pout (Some [r]) false false)
                 (average_pooling GPU eps search feats2 pin2 pout2 (Some [r]) false false).
Proof.
  intros eps D r s s' t rows ids pin crows cids pout rows2 ids2 pin2 crows2 cids2 pout2 feats feats2 cin F F2 W W2 HM Hg Hg2 search kde.
  assert (LF : length F = length ids).
  { destruct Hg as (_ & _ & L). destruct W as [(B' & Hc & _) _ _ _ _ _ _]. pose proof (cloud_is _ _ _ _ _ _ _ Hc) as Hi.
    now rewrite (ic_pts _ _ _ _ _ _ _ Hi), (ic_len _ _ _ _ _ _ _ Hi) in L. }
  pose proof (mv_len _ _ _ _ _ _ _ _ _ _ _ _ _ _ HM) as (L1 & L2 & L3 & L4).
  pose proof HM as (M1 & M2 & _).
  assert (Hdens : forall bw j, j < length ids -> density D (repeat bw D) (repeat r D) rows2 ids2 j = density D (repeat bw D) (repeat r D) rows ids (nth j s 0))
    by (intros bw j Hj; exact (density_moved _ _ _ _ _ _ _ _ _ _ M1 Hj)).
  split; [|split; [|split; [|split]]].
  - intros cout mlps sizes act a w b fw layer bw El Hc Ha Hb. unfold search, kde.
    rewrite (C34_mcconv_partial_proof _ _ _ _ _ _ _ _ _ _ _ _ _ _ _ _ _ _ _ _ _ _ _ _ W El Hc Ha Hg Hb).
    rewrite (C34_mcconv_partial_proof _ _ _ _ _ _ _ _ _ _ _ _ _ _ _ _ _ _ _ _ _ _ _ _ W2 El Hc Ha Hg2 Hb).
    eapply mv_returned; [exact HM|]. intros i c Hi _. apply mk_mcconv_inv in El. destruct El as (_ & _ & Hs & _). eapply mv_mc; eauto.
  - intros cout K de interp wt kp w wo sph layer infl El Hcin HK Hwt.
    destruct (C34_kpconv_partial_proof _ _ _ _ _ _ _ _ _ _ _ _ _ _ _ _ _ _ _ _ _ _ infl false false W El Hcin HK Hwt Hg) as (st & E & El1).
    destruct (C34_kpconv_partial_proof _ _ _ _ _ _ _ _ _ _ _ _ _ _ _ _ _ _ _ _ _ _ infl false false W2 El Hcin HK Hwt Hg2) as (st2 & E2 & El2).
    set (sigma := match infl with None => 1%R | Some x => (x / Q2R r)%R end) in *.
    set (start := fun _ k d : nat => (kp k d * (3 / 4))%R) in *.
    assert (Hpos : forall i k d, i < length cids -> k < K -> d < D ->
      (if de then start i k d + kp_formula D r rows2 ids2 crows2 cids2 F2 cin K wo (fun v => wt v sigma) start r i (k * D + d) else start i k d)%R
      = (if de then start (nth i s' 0%nat) k d + kp_formula D r rows ids crows cids F cin K wo (fun v => wt v sigma) start r (nth i s' 0%nat) (k * D + d) else start (nth i s' 0%nat) k d)%R).
    { intros i k d Hi Hk Hd. destruct de; [|reflexivity]. f_equal. eapply mv_kp; eauto. }
    do 4 eexists. split; [exact E|]. split; [exact E2|]. split.
    + destruct (mv_returned D s s' t rows ids crows cids F rows2 ids2 crows2 cids2 F2 HM pout pout2 cout
        (kp_formula D r rows ids crows cids F cin K w (fun v => wt v sigma)
          (fun i k d => if de then (start i k d + kp_formula D r rows ids crows cids F cin K wo (fun v => wt v sigma) start r i (k * D + d))%R else start i k d) r)
        (kp_formula D r rows2 ids2 crows2 cids2 F2 cin K w (fun v => wt v sigma)
          (fun i k d => if de then (start i k d + kp_formula D r rows2 ids2 crows2 cids2 F2 cin K wo (fun v => wt v sigma) start r i (k * D + d))%R else start i k d) r)) as (C & T & ETl & ET & ET2).
      * intros i c Hi Hc. eapply mv_kp; [exact HM|exact LF|exact Hi|]. intros k d Hk Hd. now apply Hpos.
      * exists C, T. split; [exact ETl|]. split; [exact ET|exact ET2].
    + rewrite El1, El2. destruct de; [|reflexivity]. f_equal. f_equal.
      * eapply mv_total; [exact HM|]. intros i Hi. apply sum_over_ext. intros k Hk. apply in_seq in Hk.
        apply rmin_perm. eapply mv_values; [exact HM|exact Hi|]. intros j Hj _. do 2 f_equal. apply norm_ext. intros d Hd.
        rewrite (mv_delta _ _ _ _ _ _ _ _ _ _ _ _ _ _ HM) by auto. f_equal. apply Hpos; auto; lia.
      * eapply mv_total; [exact HM|]. intros i Hi. apply sum_over_ext. intros k Hk. apply sum_over_ext. intros k' Hk'.
        apply in_seq in Hk. apply in_seq in Hk'.
        destruct (k =? k'); [reflexivity|]. f_equal. apply norm_ext. intros d Hd. f_equal; apply Hpos; auto; lia.
  - intros cout hidden act a axis bias w w1 b1 w2 b2 bw Hn Hcin Hh Ha Hb layer. unfold search, kde, layer.
    assert (Hnl : forall (rw : list point) (iw : list nat) cw ciw i, Forall (fun j => j < length iw) (near_points D r rw iw cw ciw i)).
    { intros rw iw cw ciw i. apply Forall_forall. intros j. apply near_lt. }
    rewrite (C34_pointconv_partial_proof _ _ _ _ _ _ _ _ _ _ cout _ _ _ axis bias w w1 b1 w2 b2 _ _ _
      (fun i => red_max (map (density D (repeat bw D) (repeat r D) rows ids) (near_points D r rows ids crows cids i))) _ _ W Hn Hcin Hh Ha Hg Hb).
    2:{ intros i _ Hne. apply dens_max; auto; apply W. }
    rewrite (C34_pointconv_partial_proof _ _ _ _ _ _ _ _ _ _ cout _ _ _ axis bias w w1 b1 w2 b2 _ _ _
      (fun i => red_max (map (density D (repeat bw D) (repeat r D) rows2 ids2) (near_points D r rows2 ids2 crows2 cids2 i))) _ _ W2 ltac:(lia) Hcin Hh Ha Hg2 Hb).
    2:{ intros i _ Hne. apply dens_max; auto; apply W. }
    eapply mv_returned; [exact HM|]. intros i c Hi _. eapply mv_pt; [exact HM|exact LF|exact Hi|intros; now apply Hdens|].
    apply red_max_perm. eapply mv_values; [exact HM|exact Hi|]. intros j Hj _. now apply Hdens.
  - unfold max_pooling, search. erewrite !local_pooling_table by (eauto using red_max_perm).
    eapply mv_returned; [exact HM|]. intros i c Hi _. apply red_max_perm. eapply mv_values; [exact HM|exact Hi|].
    intros j Hj _. eapply mv_fval; eauto.
  - unfold average_pooling, search. erewrite !local_pooling_table by (eauto using red_mean_perm).
    eapply mv_returned; [exact HM|]. intros i c Hi _. apply red_mean_perm. eapply mv_values; [exact HM|exact Hi|].
    intros j Hj _. eapply mv_fval; eauto.
Qed.

(** C32 for the layers without neighbors: Conv1x1 acts on every point, global
    pooling on every batch element. *)
Lemma C32_pointwise_proof :
  forall eps eps2 D s t rows ids B p rows2 ids2 p2 feats feats2 cin F F2,
    cloud GPU eps D rows ids B p -> cloud GPU eps2 D rows2 ids2 B p2 ->
    moved_copy D s t rows ids rows2 ids2 -> F2 = map (fun i => nth i F []) s ->
    given feats p cin F -> given feats2 p2 cin F2 ->
    (forall cout w b layer, mk_conv1x1 cin cout w b = Ok layer ->
       reordered s (conv1x1_call layer feats p false false) (conv1x1_call layer feats2 p2 false false)) /\
    forall dev, global_max_pooling dev feats2 p2 false = global_max_pooling dev feats p false /\
                global_average_pooling dev feats2 p2 false = global_average_pooling dev feats p false.
Proof.
  intros eps eps2 D s t rows ids B p rows2 ids2 p2 feats feats2 cin F F2 Hc Hc2 M EF Hg Hg2.
  assert (HM : moved_pair D s s t rows ids rows ids F rows2 ids2 rows2 ids2 F2) by (split; [exact M|split; [exact M|exact EF]]).
  pose proof (mv_len _ _ _ _ _ _ _ _ _ _ _ _ _ _ HM) as (L1 & L2 & _ & _).
  pose proof (cloud_is _ _ _ _ _ _ _ Hc) as Hi. pose proof (cloud_is _ _ _ _ _ _ _ Hc2) as Hi2.
  assert (LF : length F = length ids).
  { destruct Hg as (_ & _ & L). now rewrite (ic_pts _ _ _ _ _ _ _ Hi), (ic_len _ _ _ _ _ _ _ Hi) in L. }
  split.
  - intros cout w b layer El. rewrite (C34_conv1x1_proof _ _ _ _ _ _ _ _ _ _ El Hg), (C34_conv1x1_proof _ _ _ _ _ _ _ _ _ _ El Hg2).
    rewrite (ic_pts _ _ _ _ _ _ _ Hi), (ic_len _ _ _ _ _ _ _ Hi), (ic_pts _ _ _ _ _ _ _ Hi2), (ic_len _ _ _ _ _ _ _ Hi2).
    eapply mv_returned; [exact HM|]. intros i c Hii _. f_equal. apply sum_over_ext. intros k _. f_equal. eapply mv_fval; eauto.
  - intros dev. unfold global_max_pooling, global_average_pooling.
    rewrite !(global_pooling_table dev eps D rows ids B p feats cin F _ _ Hc Hg), !(global_pooling_table dev eps2 D rows2 ids2 B p2 feats2 cin F2 _ _ Hc2 Hg2).
    cbv zeta.
    assert (PP : forall b c, Permutation (map (fun j => fval F2 j c) (members ids2 b)) (map (fun j => fval F j c) (members ids b))).
    { intros b c. destruct M as (P & Ei & _).
      assert (Hm : Permutation (map (fun j => nth j s 0) (members ids2 b)) (members ids b)).
      { unfold members. rewrite L2.
        transitivity (filter (fun j => Nat.eqb (nth j ids 0) b) s); [|now apply Permutation_filter'].
        assert (Es : filter (fun j => nth j ids 0 =? b) s = filter (fun j => nth j ids 0 =? b) (map (fun i => nth i s 0) (seq 0 (length s))))
          by (now rewrite TensorFacts.map_nth_seq).
        rewrite Es, L1.
        assert (Hf : forall l, Forall (fun k => k < length ids) l ->
          map (fun j => nth j s 0) (filter (fun j => nth j ids2 0 =? b) l) = filter (fun j => nth j ids 0 =? b) (map (fun i => nth i s 0) l)).
        { induction l as [|k l IH]; intros HF; [reflexivity|]. inversion HF; subst. cbn [map filter].
          rewrite mv_nth by lia. destruct (nth (nth k s 0) ids 0 =? b); cbn [map]; now rewrite IH. }
        rewrite Hf; [reflexivity|]. apply Forall_forall. intros k Hk. apply in_seq in Hk. lia. }
      rewrite <- (Permutation_map (fun j => fval F j c) Hm), map_map. erewrite map_ext_in; [reflexivity|].
      intros j Hj. unfold members in Hj. apply filter_In in Hj as [Hj _]. apply in_seq in Hj. eapply mv_fval; [exact HM|exact LF|lia]. }
    split; f_equal; apply ttab_ext; intros idx Hx; idx_inv; [apply red_max_perm|apply red_mean_perm]; apply PP.
Qed.

(** C33: translating both clouds by the same vector does not change the
    outputs, nor the regularisation loss. *)
Lemma reordered_id n out out2 : reordered (seq 0 n) out out2 -> out2 = out.
Proof.
  intros (C & T & L & -> & ->). rewrite seq_length in L. do 3 f_equal. rewrite <- L. apply TensorFacts.map_nth_seq.
Qed.
Lemma moved_id D n t (rows rows2 : list point) ids : length ids = n -> translated D n t rows rows2 -> moved_copy D (seq 0 n) t rows ids rows2 ids.
Proof.
  intros <- H. split; [reflexivity|]. split; [symmetry; apply TensorFacts.map_nth_seq|].
  intros k d Hk Hd. rewrite seq_nth by exact Hk. now apply H.
Qed.
Lemma C33_translation_partial_proof :
  forall eps D r t rows ids pin crows cids pout rows2 pin2 crows2 pout2 feats cin F,
    workable eps D r rows ids pin crows cids pout -> workable eps D r rows2 ids pin2 crows2 cids pout2 ->
    translated D (length ids) t rows rows2 -> translated D (length cids) t crows crows2 ->
    given feats pin cin F -> given feats pin2 cin F ->
    let search := find_neighbors_tf GPU in let kde := compute_pdf_tf GPU in
    (forall cout mlps sizes act a w b fw layer bandwidth,
       mk_mcconv cin cout D mlps sizes act w b fw = Ok layer -> 0 < cout -> activation act a -> (0 < bandwidth)%R ->
       mcconv_call GPU eps search kde layer feats pin2 pout2 r None bandwidth false false
       = mcconv_call GPU eps search kde layer feats pin pout r None bandwidth false false) /\
    (forall cout K deformable interpolation wt kernel_points w wo spherical layer influence,
       mk_kpconv cin cout K D deformable interpolation
         (Some (ttab [K; D] (fun idx => match idx with [k; d] => kernel_points k d | _ => 0%R end))) spherical w wo = Ok layer ->
       0 < cin -> 0 < K -> weighting interpolation wt ->
       exists o state state2,
         kpconv_call GPU eps search layer feats pin pout r None influence false false = Ok (o, state) /\
         kpconv_call GPU eps search layer feats pin2 pout2 r None influence false false = Ok (o, state2) /\
         regularization_loss GPU layer state2 = regularization_loss GPU layer state) /\
    (forall cout hidden act a axis bias w w1 b1 w2 b2 bandwidth,
       2 <= length cids -> 0 < cin -> 0 < hidden -> activation act a -> (0 < bandwidth)%R ->
       let layer := mk_pointconv cin cout D hidden act axis bias w w1 b1 w2 b2 in
       pointconv_call GPU eps search kde layer feats pin2 pout2 r None bandwidth false false
       = pointconv_call GPU eps search kde layer feats pin pout r None bandwidth false false) /\
    max_pooling GPU eps search feats pin2 pout2 (Some [r]) false false = max_pooling GPU eps search feats pin pout (Some [r]) false false /\
    average_pooling GPU eps search feats pin2 pout2 (Some [r]) false false
    = average_pooling GPU eps search feats pin pout (Some [r]) false false.
Proof.
  intros eps D r t rows ids pin crows cids pout rows2 pin2 crows2 pout2 feats cin F W W2 T1 T2 Hg Hg2 search kde.
  assert (LF : length F = length ids).
  { destruct Hg as (_ & _ & L). destruct W as [(B' & Hc & _) _ _ _ _ _ _]. pose proof (cloud_is _ _ _ _ _ _ _ Hc) as Hi.
    now rewrite (ic_pts _ _ _ _ _ _ _ Hi), (ic_len _ _ _ _ _ _ _ Hi) in L. }
  assert (HM : moved_pair D (seq 0 (length ids)) (seq 0 (length cids)) t rows ids crows cids F rows2 ids crows2 cids F).
  { split; [now apply moved_id|]. split; [now apply moved_id|]. rewrite <- LF. symmetry. apply TensorFacts.map_nth_seq. }
  destruct (C32_layers_partial_proof _ _ _ _ _ _ _ _ _ _ _ _ _ _ _ _ _ _ _ _ _ _ _ W W2 HM Hg Hg2) as (H1 & H2 & H3 & H4 & H5).
  split; [|split; [|split; [|split]]].
  - intros. eapply reordered_id, H1; eauto.
  - intros cout K de interp wt kp w wo sph layer infl El Hcin HK Hwt.
    destruct (H2 cout K de interp wt kp w wo sph layer infl El Hcin HK Hwt) as (o & o2 & st & st2 & E1 & E2 & E3 & E4).
    apply reordered_id in E3. injection E3 as ->. eauto 8.
  - intros cout hidden act a axis bias w w1 b1 w2 b2 bw Hn Hcin Hh Ha Hb layer. eapply reordered_id, H3; eauto.
  - eapply reordered_id, H4.
  - eapply reordered_id, H5.
Qed.

(** Examples: the second pair of clouds has the points in the order 4, 1, 0, 2,
    5, 3 and the centers in the order 3, 4, 0, 1, 2, moved by (1/4, -1). *)
Definition exM_s : list nat := [4;1;0;2;5;3].
Definition exM_s' : list nat := [3;4;0;1;2].
Definition exM_t : nat -> Q := fun d => nth d [1#4; -1#1] 0%Q.
Definition exM_move (rows : list point) (s : list nat) : list point :=
  map (fun i => map (fun d => nth d (nth i rows []) 0 + exM_t d)%Q (seq 0 2)) s.
Definition exM_rows := exM_move exN_rows exM_s.
Definition exM_ids := map (fun i => nth i exN_ids 0) exM_s.
Definition exM_centers := exM_move exN_centers exM_s'.
Definition exM_cids := map (fun i => nth i exN_cids 0) exM_s'.
Definition exM_F := map (fun i => nth i exN_F []) exM_s.
Lemma exM_workable : workable (1#1000) 2 1 exM_rows exM_ids (seg 2 exM_rows exM_ids 2) exM_centers exM_cids (seg 2 exM_centers exM_cids 2).
Proof.
  constructor.
  - exists 2. split; [apply seg_cloud; repeat constructor|]. split; [repeat constructor|].
    exists [4%Z;4%Z]. split; [reflexivity|]. split; [vm_compute; discriminate|]. intros d Hd. destruct d as [|[|d]]; [| |lia]; (split; [cbn; lia|]);
    intros i j Hi Hj _; cbn in Hi, Hj;
    do 6 (destruct i as [|i]; [do 6 (destruct j as [|j]; [vm_compute; discriminate|]); lia|]); lia.
  - exists 0%Q, 2. apply seg_cloud; repeat constructor.
  - lia.
  - reflexivity.
  - split; vm_compute; congruence.
  - split; [discriminate|vm_compute; reflexivity].
  - discriminate.
Qed.
Example C32_layers_partial_ex_proof :
  workable (1#1000) 2 1 exN_rows exN_ids (seg 2 exN_rows exN_ids 2) exN_centers exN_cids (seg 2 exN_centers exN_cids 2) /\
  workable (1#1000) 2 1 exM_rows exM_ids (seg 2 exM_rows exM_ids 2) exM_centers exM_cids (seg 2 exM_centers exM_cids 2) /\
  moved_pair 2 [4;1;0;2;5;3] [3;4;0;1;2] (fun d => nth d [1#4; -1#1] 0%Q) exN_rows exN_ids exN_centers exN_cids exN_F
    exM_rows exM_ids exM_centers exM_cids exM_F /\
  given (Feat 2 (inr exN_F)) (seg 2 exN_rows exN_ids 2) 2 exN_F /\
  given (Feat 2 (inr exM_F)) (seg 2 exM_rows exM_ids 2) 2 exM_F.
Proof.
  split; [exact exN_workable|]. split; [exact exM_workable|]. split; [|split; [exact exN_given|split; [reflexivity|split; reflexivity]]].
  assert (P : forall s n, length s = n -> (forall i, i < n -> In i s) -> Permutation s (seq 0 n)).
  { intros s n Hl H. symmetry. apply NoDup_Permutation_bis; [apply seq_NoDup|rewrite seq_length; lia|].
    intros i Hi. apply in_seq in Hi. apply H. lia. }
  split; [|split; [|reflexivity]].
  - split; [apply P; [reflexivity|]; intros i Hi; cbn in Hi; do 6 (destruct i as [|i]; [cbn; tauto|]); lia|]. split; [reflexivity|].
    intros k d Hk Hd. cbn in Hk. destruct d as [|[|d]]; [..|lia]; do 6 (destruct k as [|k]; [vm_compute; reflexivity|]); lia.
  - split; [apply P; [reflexivity|]; intros i Hi; cbn in Hi; do 5 (destruct i as [|i]; [cbn; tauto|]); lia|]. split; [reflexivity|].
    intros k d Hk Hd. cbn in Hk. destruct d as [|[|d]]; [..|lia]; do 5 (destruct k as [|k]; [vm_compute; reflexivity|]); lia.
Qed.
Example C32_pointwise_ex_proof :
  cloud GPU (1#1000) 2 exN_rows exN_ids 2 (seg 2 exN_rows exN_ids 2) /\
  cloud GPU (1#1000) 2 exM_rows exM_ids 2 (seg 2 exM_rows exM_ids 2) /\
  moved_copy 2 [4;1;0;2;5;3] (fun d => nth d [1#4; -1#1] 0%Q) exN_rows exN_ids exM_rows exM_ids /\
  exM_F = map (fun i => nth i exN_F []) [4;1;0;2;5;3].
Proof.
  split; [apply seg_cloud; repeat constructor|]. split; [apply seg_cloud; repeat constructor|].
  split; [exact (proj1 (proj1 (proj2 (proj2 C32_layers_partial_ex_proof))))|reflexivity].
Qed.
Definition exT_rows := exM_move exN_rows (seq 0 6).
Definition exT_centers := exM_move exN_centers (seq 0 5).
Example C33_translation_partial_ex_proof :
  workable (1#1000) 2 1 exT_rows exN_ids (seg 2 exT_rows exN_ids 2) exT_centers exN_cids (seg 2 exT_centers exN_cids 2) /\
  translated 2 (length exN_ids) (fun d => nth d [1#4; -1#1] 0%Q) exN_rows exT_rows /\
  translated 2 (length exN_cids) (fun d => nth d [1#4; -1#1] 0%Q) exN_centers exT_centers /\
  given (Feat 2 (inr exN_F)) (seg 2 exT_rows exN_ids 2) 2 exN_F.
Proof.
  split; [|split; [|split; [|split; [reflexivity|split; reflexivity]]]].
  - constructor.
    + exists 2. split; [apply seg_cloud; repeat constructor|]. split; [repeat constructor|].
      exists [4%Z;4%Z]. split; [reflexivity|]. split; [vm_compute; discriminate|]. intros d Hd. destruct d as [|[|d]]; [| |lia]; (split; [cbn; lia|]);
      intros i j Hi Hj _; cbn in Hi, Hj;
      do 6 (destruct i as [|i]; [do 6 (destruct j as [|j]; [vm_compute; discriminate|]); lia|]); lia.
    + exists 0%Q, 2. apply seg_cloud; repeat constructor.
    + lia.
    + reflexivity.
    + split; vm_compute; congruence.
    + split; [discriminate|vm_compute; reflexivity].
    + discriminate.
  - intros k d Hk Hd. cbn in Hk. destruct d as [|[|d]]; [..|lia]; do 6 (destruct k as [|k]; [vm_compute; reflexivity|]); lia.
  - intros k d Hk Hd. cbn in Hk. destruct d as [|[|d]]; [..|lia]; do 5 (destruct k as [|k]; [vm_compute; reflexivity|]); lia.
Qed.
