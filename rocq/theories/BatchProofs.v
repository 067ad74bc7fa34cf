(** Proofs that the batch elements do not influence each other (C56). The
    statements are copied verbatim into PropertiesBatch.v. *)
From Coq Require Import String List Arith ZArith QArith Reals Qreals Lia Lra Bool Permutation FunctionalExtensionality.
From Verif Require Import Tensor TensorFacts Spec SpecText TextFacts PointCloud SpecCloud PointCloudFacts QFacts Grid SpecGrid GridFacts
  Neighbors SpecNeighbors NeighborFacts NeighborProofs Neighborhood NeighborhoodFacts NeighborhoodProofs
  Sampling SpecSampling SamplingFacts SamplingProofs Hierarchy SpecHierarchy HierarchyFacts Pdf SpecPdf PdfFacts PdfProofs
  RTensor RTensorFacts Layers SpecLayers LayerFacts LayerLink LayerProofs ConvProofs MoveProofs SpecBatch.
Import ListNotations.
Local Open Scope nat_scope.

(** The rows of an element by their indices. *)
Lemma element_members {A} b (rows : list A) ids d : length rows = length ids ->
  element b rows ids = map (fun j => nth j rows d) (members ids b).
Proof.
  intros L. unfold element, members.
  assert (H : forall n, map fst (filter (fun p : A * nat => snd p =? b) (combine rows ids))
    = map (fun j => nth (j - n) rows d) (filter (fun j => nth (j - n) ids 0 =? b) (seq n (length ids)))).
  { revert ids L. induction rows as [|x rows IH]; intros [|i ids] L n; try discriminate; [reflexivity|].
    cbn [combine filter length seq map snd]. rewrite Nat.sub_diag. cbn [nth].
    assert (E : map (fun j => nth (j - n) (x :: rows) d) (filter (fun j => nth (j - n) (i :: ids) 0 =? b) (seq (S n) (length ids)))
      = map (fun j => nth (j - S n) rows d) (filter (fun j => nth (j - S n) ids 0 =? b) (seq (S n) (length ids)))).
    { assert (G : forall l, Forall (fun j => n < j) l ->
        map (fun j => nth (j - n) (x :: rows) d) (filter (fun j => nth (j - n) (i :: ids) 0 =? b) l)
        = map (fun j => nth (j - S n) rows d) (filter (fun j => nth (j - S n) ids 0 =? b) l)).
      { induction l as [|j l IHl]; intros HF; [reflexivity|]. inversion HF; subst. cbn [filter].
        replace (j - n) with (S (j - S n)) by lia. cbn [nth].
        destruct (nth (j - S n) ids 0 =? b); [|now apply IHl]. cbn [map].
        replace (j - n) with (S (j - S n)) by lia. cbn [nth]. f_equal. now apply IHl. }
      apply G, Forall_forall. intros j Hj. apply in_seq in Hj. lia. }
    destruct (i =? b); cbn [map fst].
    - rewrite Nat.sub_diag. cbn [nth]. f_equal. rewrite (IH ids ltac:(cbn in L; lia) (S n)). symmetry. exact E.
    - rewrite (IH ids ltac:(cbn in L; lia) (S n)). symmetry. exact E. }
  rewrite (H 0).
  erewrite map_ext; [|intros j; rewrite Nat.sub_0_r; reflexivity]. f_equal. apply filter_ext. intros j. now rewrite Nat.sub_0_r.
Qed.
Lemma members_lt ids b k : k < length (members ids b) -> nth k (members ids b) 0 < length ids /\ nth (nth k (members ids b) 0) ids 0 = b.
Proof.
  intros Hk. assert (H : In (nth k (members ids b) 0) (members ids b)) by now apply nth_In.
  unfold members in H at 2. apply filter_In in H as [H E]. apply in_seq in H. apply Nat.eqb_eq in E. split; [lia|exact E].
Qed.

Section Same.
  Context (D b b2 : nat) (rows : list point) (ids : list nat) (crows : list point) (cids : list nat) (F : list (list R))
    (rows2 : list point) (ids2 : list nat) (crows2 : list point) (cids2 : list nat) (F2 : list (list R)).
  Context (L : length rows = length ids) (Lc : length crows = length cids) (LF : length F = length ids)
    (L2 : length rows2 = length ids2) (Lc2 : length crows2 = length cids2) (LF2 : length F2 = length ids2)
    (Hrows : same_element b rows ids b2 rows2 ids2) (Hcrows : same_element b crows cids b2 crows2 cids2)
    (HF : same_element b F ids b2 F2 ids2).

  (** Corresponding indices. *)
  Definition same_index (i1 i2 : list nat) (j j2 : nat) : Prop :=
    exists k, k < length (members i1 b) /\ k < length (members i2 b2) /\ j = nth k (members i1 b) 0 /\ j2 = nth k (members i2 b2) 0.

  Lemma same_nth {A} (r1 r2 : list A) i1 i2 d j j2 : length r1 = length i1 -> length r2 = length i2 ->
    same_element b r1 i1 b2 r2 i2 -> same_index i1 i2 j j2 -> nth j r1 d = nth j2 r2 d.
  Proof using.
    intros H1 H2 E (k & Hk & Hk2 & -> & ->). red in E. rewrite (element_members b r1 i1 d H1), (element_members b2 r2 i2 d H2) in E.
    apply (f_equal (fun l => nth k l d)) in E.
    rewrite (nth_indep _ d (nth 0 r1 d)), (nth_indep (map _ (members i2 b2)) d (nth 0 r2 d)) in E by now rewrite map_length.
    now rewrite (map_nth (fun j => nth j r1 d)), (map_nth (fun j => nth j r2 d)) in E.
  Qed.
  Lemma same_count : length (members ids b) = length (members ids2 b2) /\ length (members cids b) = length (members cids2 b2).
  Proof using All.
    red in Hrows, Hcrows.
    rewrite (element_members b rows ids [] L), (element_members b2 rows2 ids2 [] L2) in Hrows.
    rewrite (element_members b crows cids [] Lc), (element_members b2 crows2 cids2 [] Lc2) in Hcrows.
    apply (f_equal (@length _)) in Hrows, Hcrows. now rewrite !map_length in Hrows, Hcrows.
  Qed.

  (** The neighbors of corresponding centers correspond. *)
  Lemma near_members (rw : list point) (iw : list nat) cw ciw bb r i : nth i ciw 0 = bb ->
    near_points D r rw iw cw ciw i
    = map (fun k => nth k (members iw bb) 0)
        (filter (fun k => negb (Qle_bool (r * r) (dist2 D (nth (nth k (members iw bb) 0%nat) rw []) (nth i cw []))))
           (seq 0 (length (members iw bb)))).
  Proof using.
    intros Hi. rewrite <- (filter_map_swap (fun k => nth k (members iw bb) 0) (fun j => negb (Qle_bool (r * r) (dist2 D (nth j rw []) (nth i cw []))))).
    rewrite TensorFacts.map_nth_seq. unfold near_points, members. rewrite Hi. generalize (seq 0 (length iw)) as l.
    induction l as [|j l IH]; [reflexivity|]. cbn [filter]. destruct (nth j iw 0 =? bb); cbn [andb filter]; [|exact IH].
    destruct (negb _); [f_equal|]; exact IH.
  Qed.
  Lemma same_values {A} r (rw rw2 : list point) (ciw ciw2 : list nat) (cw cw2 : list point) (G G2 : nat -> A) i i2 :
    length cw = length ciw -> length cw2 = length ciw2 -> same_element b cw ciw b2 cw2 ciw2 ->
    rw = rows -> rw2 = rows2 ->
    same_index ciw ciw2 i i2 -> (forall j j2, same_index ids ids2 j j2 -> G j = G2 j2) ->
    map G (near_points D r rw ids cw ciw i) = map G2 (near_points D r rw2 ids2 cw2 ciw2 i2).
  Proof using All.
    intros Hc Hc2 Es -> -> Hi HG. pose proof Hi as (k & Hk & Hk2 & Ei & Ei2).
    rewrite (near_members rows ids cw ciw b), (near_members rows2 ids2 cw2 ciw2 b2), !map_map.
    2:{ subst i2. now apply members_lt. } 2:{ subst i. now apply members_lt. }
    destruct same_count as [E _]. rewrite <- E. rewrite (same_nth cw cw2 ciw ciw2 [] i i2 Hc Hc2 Es Hi).
    assert (HK : forall l, Forall (fun q => q < length (members ids b)) l ->
      map (fun x => G (nth x (members ids b) 0)) (filter (fun q => negb (Qle_bool (r * r) (dist2 D (nth (nth q (members ids b) 0%nat) rows []) (nth i2 cw2 [])))) l)
      = map (fun x => G2 (nth x (members ids2 b2) 0)) (filter (fun q => negb (Qle_bool (r * r) (dist2 D (nth (nth q (members ids2 b2) 0%nat) rows2 []) (nth i2 cw2 [])))) l)).
    { induction l as [|q l IH]; intros HF'; [reflexivity|]. inversion HF' as [|? ? Hq HF'']; subst. cbn [filter].
      assert (Hs : same_index ids ids2 (nth q (members ids b) 0) (nth q (members ids2 b2) 0)) by (exists q; repeat split; auto; lia).
      rewrite (same_nth rows rows2 ids ids2 [] _ _ L L2 Hrows Hs). destruct (negb _); cbn [map]; [|now apply IH].
      rewrite (HG _ _ Hs). f_equal. now apply IH. }
    apply HK, Forall_forall. intros q Hq. apply in_seq in Hq. lia.
  Qed.
  Lemma near_same {A} r (G G2 : nat -> A) i i2 : same_index cids cids2 i i2 -> (forall j j2, same_index ids ids2 j j2 -> G j = G2 j2) ->
    map G (near_points D r rows ids crows cids i) = map G2 (near_points D r rows2 ids2 crows2 cids2 i2).
  Proof using All. intros. now apply same_values. Qed.
  Lemma sum_same r (G G2 : nat -> R) i i2 : same_index cids cids2 i i2 -> (forall j j2, same_index ids ids2 j j2 -> G j = G2 j2) ->
    sum_over (near_points D r rows ids crows cids i) G = sum_over (near_points D r rows2 ids2 crows2 cids2 i2) G2.
  Proof using All. intros. unfold sum_over. f_equal. now apply near_same. Qed.

  Lemma delta_same j j2 i i2 d : same_index ids ids2 j j2 -> same_index cids cids2 i i2 -> delta rows crows j i d = delta rows2 crows2 j2 i2 d.
  Proof using All.
    intros Hj Hi. unfold delta, xc. now rewrite (same_nth rows rows2 ids ids2 [] j j2), (same_nth crows crows2 cids cids2 [] i i2).
  Qed.
  Lemma fval_same j j2 c : same_index ids ids2 j j2 -> fval F j c = fval F2 j2 c.
  Proof using All. intros Hj. unfold fval. now rewrite (same_nth F F2 ids ids2 [] j j2). Qed.
  Lemma density_same bw radii j j2 : same_index ids ids2 j j2 -> density D bw radii rows ids j = density D bw radii rows2 ids2 j2.
  Proof using All.
    intros Hj. unfold density. f_equal. unfold sum_over. f_equal.
    change (close_points D radii rows ids j) with (near_points D (nth 0 radii 0%Q) rows ids rows ids j).
    change (close_points D radii rows2 ids2 j2) with (near_points D (nth 0 radii 0%Q) rows2 ids2 rows2 ids2 j2).
    apply same_values; auto. intros q q2 Hq.
    now rewrite (same_nth rows rows2 ids ids2 [] j j2), (same_nth rows rows2 ids ids2 [] q q2).
  Qed.

  Lemma mc_same r cin cout mlps sizes a w bb fw rr dens dens2 i i2 o : same_index cids cids2 i i2 ->
    (forall j j2, same_index ids ids2 j j2 -> dens j i = dens2 j2 i2) ->
    mc_formula D r rows ids crows cids F cin cout mlps sizes a w bb fw rr dens i o
    = mc_formula D r rows2 ids2 crows2 cids2 F2 cin cout mlps sizes a w bb fw rr dens2 i2 o.
  Proof using All.
    intros Hi Hd. unfold mc_formula, weighted_sum. apply sum_over_ext. intros c _. apply sum_over_ext. intros h _.
    f_equal. apply sum_same; [exact Hi|]. intros j j2 Hj. rewrite (fval_same j j2), (Hd j j2) by auto. do 2 f_equal.
    f_equal. apply functional_extensionality. intros d. now rewrite (delta_same j j2 i i2).
  Qed.
  Lemma kp_same r cin K w wt kpt kpt2 rr i i2 o : same_index cids cids2 i i2 ->
    (forall k d, k < K -> d < D -> kpt i k d = kpt2 i2 k d) ->
    kp_formula D r rows ids crows cids F cin K w wt kpt rr i o
    = kp_formula D r rows2 ids2 crows2 cids2 F2 cin K w wt kpt2 rr i2 o.
  Proof using All.
    intros Hi Hk. unfold kp_formula, weighted_sum. apply sum_over_ext. intros c _. apply sum_over_ext. intros k Hk'.
    apply in_seq in Hk'. f_equal. apply sum_same; [exact Hi|]. intros j j2 Hj. rewrite (fval_same j j2) by auto. do 2 f_equal.
    apply norm_ext. intros d Hd. rewrite (delta_same j j2 i i2), Hk by (auto; lia). reflexivity.
  Qed.
  Lemma pt_same r cin H a axis bias w w1 b1 w2 bb2 dens dens2 mx mx2 i i2 o : same_index cids cids2 i i2 ->
    (forall j j2, same_index ids ids2 j j2 -> dens j i = dens2 j2 i2) -> mx i = mx2 i2 ->
    pt_formula D r rows ids crows cids F cin H a axis bias w w1 b1 w2 bb2 dens mx i o
    = pt_formula D r rows2 ids2 crows2 cids2 F2 cin H a axis bias w w1 b1 w2 bb2 dens2 mx2 i2 o.
  Proof using All.
    intros Hi Hd Hm. unfold pt_formula, weighted_sum. apply sum_over_ext. intros c _. apply sum_over_ext. intros h _.
    f_equal. apply sum_same; [exact Hi|]. intros j j2 Hj. rewrite (fval_same j j2), (Hd j j2), Hm by auto. do 4 f_equal.
    apply sum_over_ext. intros d _. now rewrite (delta_same j j2 i i2).
  Qed.

  Lemma table_same C f g : (forall i i2 c, same_index cids cids2 i i2 -> c < C -> f i c = g i2 c) ->
    same_element b (table (length cids) C f) cids b2 (table (length cids2) C g) cids2.
  Proof using All.
    intros H. red. rewrite !(element_members _ (table _ _ _) _ []) by (unfold table; now rewrite map_length, seq_length).
    destruct same_count as [_ E]. rewrite <- (TensorFacts.map_nth_seq (members cids b) 0), <- (TensorFacts.map_nth_seq (members cids2 b2) 0) at 1.
    rewrite <- E, !map_map. apply map_ext_in. intros k Hk. apply in_seq in Hk.
    pose proof (members_lt cids b k ltac:(lia)) as [H1 _]. pose proof (members_lt cids2 b2 k ltac:(lia)) as [H2 _].
    unfold table. rewrite !nth_map_seq by assumption. apply map_ext_in. intros c Hc. apply in_seq in Hc.
    apply H; [|lia]. exists k. repeat split; lia.
  Qed.
  Lemma returned_same pout pout2 C f g : (forall i i2 c, same_index cids cids2 i i2 -> c < C -> f i c = g i2 c) ->
    same_output C b cids (returned pout false false C (table (length cids) C f)) b2 cids2 (returned pout2 false false C (table (length cids2) C g)).
  Proof using All.
    intros H. exists (table (length cids) C f), (table (length cids2) C g). unfold returned. cbn [format_output snd].
    split; [reflexivity|]. split; [reflexivity|]. split; [unfold table; now rewrite map_length, seq_length|].
    split; [unfold table; now rewrite map_length, seq_length|]. now apply table_same.
  Qed.
End Same.

(** C56. Two calls of a layer with different batches: if element [e] of the
    first batch and element [e2] of the second have the same input points, input
    features and output points, then the output features of these elements are
    the same, whatever the other elements are. *)
Lemma C56_layers_partial_proof :
  forall eps eps2 D r e e2 rows ids pin crows cids pout rows2 ids2 pin2 crows2 cids2 pout2 feats feats2 cin F F2,
    workable eps D r rows ids pin crows cids pout -> workable eps2 D r rows2 ids2 pin2 crows2 cids2 pout2 ->
    given feats pin cin F -> given feats2 pin2 cin F2 ->
    same_element e rows ids e2 rows2 ids2 -> same_element e crows cids e2 crows2 cids2 -> same_element e F ids e2 F2 ids2 ->
    let search := find_neighbors_tf GPU in let kde := compute_pdf_tf GPU in
    (forall cout mlps sizes act a w b fw layer bandwidth,
       mk_mcconv cin cout D mlps sizes act w b fw = Ok layer -> 0 < cout -> activation act a -> (0 < bandwidth)%R ->
       same_output cout
         e cids (mcconv_call GPU eps search kde layer feats pin pout r None bandwidth false false)
         e2 cids2 (mcconv_call GPU eps2 search kde layer feats2 pin2 pout2 r None bandwidth false false)) /\
    (forall cout K deformable interpolation wt kernel_points w wo spherical layer influence,
       mk_kpconv cin cout K D deformable interpolation
         (Some (ttab [K; D] (fun idx => match idx with [k; d] => kernel_points k d | _ => 0%R end))) spherical w wo = Ok layer ->
       0 < cin -> 0 < K -> weighting interpolation wt ->
       exists o o2 state state2,
         kpconv_call GPU eps search layer feats pin pout r None influence false false = Ok (o, state) /\
         kpconv_call GPU eps2 search layer feats2 pin2 pout2 r None influence false false = Ok (o2, state2) /\
         same_output cout e cids (Ok o) e2 cids2 (Ok o2)) /\
    (forall cout hidden act a axis bias w w1 b1 w2 b2 bandwidth,
       2 <= length cids -> 2 <= length cids2 -> 0 < cin -> 0 < hidden -> activation act a -> (0 < bandwidth)%R ->
       let layer := mk_pointconv cin cout D hidden act axis bias w w1 b1 w2 b2 in
       same_output cout
         e cids (pointconv_call GPU eps search kde layer feats pin pout r None bandwidth false false)
         e2 cids2 (pointconv_call GPU eps2 search kde layer feats2 pin2 pout2 r None bandwidth false false)) /\
    same_output cin e cids (max_pooling GPU eps search feats pin pout (Some [r]) false false)
      e2 cids2 (max_pooling GPU eps2 search feats2 pin2 pout2 (Some [r]) false false) /\
    same_output cin e cids (average_pooling GPU eps search feats pin pout (Some [r]) false false)
      e2 cids2 (average_pooling GPU eps2 search feats2 pin2 pout2 (Some [r]) false false).
Proof.
  intros eps eps2 D r e e2 rows ids pin crows cids pout rows2 ids2 pin2 crows2 cids2 pout2 feats feats2 cin F F2 W W2 Hg Hg2 S1 S2 S3 search kde.
  assert (Len : forall ep rw iw pi cw ciw po fe FF, workable ep D r rw iw pi cw ciw po -> given fe pi cin FF ->
    length rw = length iw /\ length cw = length ciw /\ length FF = length iw).
  { intros ep rw iw pi cw ciw po fe FF [(B' & Hc & _) (ce & CB & Hc') _ _ _ _ _] (_ & _ & LL).
    pose proof (cloud_is _ _ _ _ _ _ _ Hc) as Hi. pose proof (cloud_is _ _ _ _ _ _ _ Hc') as Hi'.
    rewrite (ic_pts _ _ _ _ _ _ _ Hi), (ic_len _ _ _ _ _ _ _ Hi) in LL.
    split; [apply Hi|]. split; [apply Hi'|exact LL]. }
  destruct (Len _ _ _ _ _ _ _ _ _ W Hg) as (L & Lc & LF). destruct (Len _ _ _ _ _ _ _ _ _ W2 Hg2) as (L2 & Lc2 & LF2). clear Len.
  pose proof (returned_same D e e2 rows ids crows cids F rows2 ids2 crows2 cids2 F2 L Lc LF L2 Lc2 LF2 S1 S2 S3) as RS.
  pose proof (density_same D e e2 rows ids crows cids F rows2 ids2 crows2 cids2 F2 L Lc LF L2 Lc2 LF2 S1 S2 S3) as DS.
  pose proof (fval_same D e e2 rows ids crows cids F rows2 ids2 crows2 cids2 F2 L Lc LF L2 Lc2 LF2 S1 S2 S3) as FS.
  pose proof (kp_same D e e2 rows ids crows cids F rows2 ids2 crows2 cids2 F2 L Lc LF L2 Lc2 LF2 S1 S2 S3) as KS.
  split; [|split; [|split; [|split]]].
  - intros cout mlps sizes act a w b fw layer bw El Hc Ha Hb. unfold search, kde.
    rewrite (C34_mcconv_partial_proof _ _ _ _ _ _ _ _ _ _ _ _ _ _ _ _ _ _ _ _ _ _ _ _ W El Hc Ha Hg Hb).
    rewrite (C34_mcconv_partial_proof _ _ _ _ _ _ _ _ _ _ _ _ _ _ _ _ _ _ _ _ _ _ _ _ W2 El Hc Ha Hg2 Hb).
    apply RS. intros i i2 c Hi _. eapply mc_same; eauto.
  - intros cout K de interp wt kp w wo sph layer infl El Hcin HK Hwt.
    destruct (C34_kpconv_partial_proof _ _ _ _ _ _ _ _ _ _ _ _ _ _ _ _ _ _ _ _ _ _ infl false false W El Hcin HK Hwt Hg) as (st & E & _).
    destruct (C34_kpconv_partial_proof _ _ _ _ _ _ _ _ _ _ _ _ _ _ _ _ _ _ _ _ _ _ infl false false W2 El Hcin HK Hwt Hg2) as (st2 & E2 & _).
    cbn [returned format_output snd bind] in E, E2. unfold returned in E, E2. cbn [format_output snd bind] in E, E2.
    do 4 eexists. split; [exact E|]. split; [exact E2|].
    refine (RS pout pout2 cout _ _ _). intros i i2 c Hi _. apply KS; [exact Hi|]. intros k d Hk Hd. destruct de; [|reflexivity].
    f_equal. apply KS; [exact Hi|]. reflexivity.
  - intros cout hidden act a axis bias w w1 b1 w2 b2 bw Hn Hn2 Hcin Hh Ha Hb layer. unfold search, kde, layer.
    assert (Hnl : forall (rw : list point) (iw : list nat) cw ciw i, Forall (fun j => j < length iw) (near_points D r rw iw cw ciw i)).
    { intros rw iw cw ciw i. apply Forall_forall. intros j. apply near_lt. }
    rewrite (C34_pointconv_partial_proof _ _ _ _ _ _ _ _ _ _ cout _ _ _ axis bias w w1 b1 w2 b2 _ _ _
      (fun i => red_max (map (density D (repeat bw D) (repeat r D) rows ids) (near_points D r rows ids crows cids i))) _ _ W Hn Hcin Hh Ha Hg Hb).
    2:{ intros i _ Hne. apply dens_max; auto; apply W. }
    rewrite (C34_pointconv_partial_proof _ _ _ _ _ _ _ _ _ _ cout _ _ _ axis bias w w1 b1 w2 b2 _ _ _
      (fun i => red_max (map (density D (repeat bw D) (repeat r D) rows2 ids2) (near_points D r rows2 ids2 crows2 cids2 i))) _ _ W2 Hn2 Hcin Hh Ha Hg2 Hb).
    2:{ intros i _ Hne. apply dens_max; auto; apply W. }
    apply RS. intros i i2 c Hi _. eapply pt_same; eauto. cbv beta. f_equal. eapply near_same; eauto.
  - unfold max_pooling, search. erewrite !local_pooling_table by (eauto using red_max_perm).
    apply RS. intros i i2 c Hi _. f_equal. eapply near_same; eauto.
  - unfold average_pooling, search. erewrite !local_pooling_table by (eauto using red_mean_perm).
    apply RS. intros i i2 c Hi _. f_equal. eapply near_same; eauto.
Qed.

(** C56, the layers without neighbors: the rows that Conv1x1 computes for an
    element, and the row of the element after global pooling. *)
Lemma C56_pointwise_proof :
  forall eps eps2 D e e2 rows ids B p rows2 ids2 B2 p2 feats feats2 cin F F2,
    cloud GPU eps D rows ids B p -> cloud GPU eps2 D rows2 ids2 B2 p2 ->
    given feats p cin F -> given feats2 p2 cin F2 ->
    same_element e rows ids e2 rows2 ids2 -> same_element e F ids e2 F2 ids2 -> e < B -> e2 < B2 ->
    (forall cout w b layer, mk_conv1x1 cin cout w b = Ok layer ->
       same_output cout e ids (conv1x1_call layer feats p false false) e2 ids2 (conv1x1_call layer feats2 p2 false false)) /\
    forall dev, exists mx av mx2 av2,
      global_max_pooling dev feats p false = Ok mx /\ global_average_pooling dev feats p false = Ok av /\
      global_max_pooling dev feats2 p2 false = Ok mx2 /\ global_average_pooling dev feats2 p2 false = Ok av2 /\
      forall c, c < cin -> tget mx [e; c] = tget mx2 [e2; c] /\ tget av [e; c] = tget av2 [e2; c].
Proof.
  intros eps eps2 D e e2 rows ids B p rows2 ids2 B2 p2 feats feats2 cin F F2 Hc Hc2 Hg Hg2 S1 S3 He He2.
  pose proof (cloud_is _ _ _ _ _ _ _ Hc) as Hi. pose proof (cloud_is _ _ _ _ _ _ _ Hc2) as Hi2.
  assert (L : length rows = length ids) by apply Hi. assert (L2 : length rows2 = length ids2) by apply Hi2.
  assert (LF : length F = length ids) by (destruct Hg as (_ & _ & LL); now rewrite (ic_pts _ _ _ _ _ _ _ Hi), L in LL).
  assert (LF2 : length F2 = length ids2) by (destruct Hg2 as (_ & _ & LL); now rewrite (ic_pts _ _ _ _ _ _ _ Hi2), L2 in LL).
  pose proof (fval_same D e e2 rows ids rows ids F rows2 ids2 rows2 ids2 F2 L L LF L2 L2 LF2 S1 S1 S3) as FS.
  split.
  - intros cout w b layer El. rewrite (C34_conv1x1_proof _ _ _ _ _ _ _ _ _ _ El Hg), (C34_conv1x1_proof _ _ _ _ _ _ _ _ _ _ El Hg2).
    rewrite (ic_pts _ _ _ _ _ _ _ Hi), L, (ic_pts _ _ _ _ _ _ _ Hi2), L2.
    apply (returned_same D e e2 rows ids rows ids F rows2 ids2 rows2 ids2 F2 L L LF L2 L2 LF2 S1 S1 S3).
    intros i i2 c Hii _. f_equal. apply sum_over_ext. intros k _. now rewrite (FS i i2).
  - intros dev. unfold global_max_pooling, global_average_pooling.
    rewrite !(global_pooling_table dev eps D rows ids B p feats cin F _ _ Hc Hg), !(global_pooling_table dev eps2 D rows2 ids2 B2 p2 feats2 cin F2 _ _ Hc2 Hg2).
    cbv zeta. do 4 eexists. split; [reflexivity|]. split; [reflexivity|]. split; [reflexivity|]. split; [reflexivity|].
    intros c Hcc. rewrite !tget_ttab by in_sh.
    assert (E : map (fun j => fval F j c) (members ids e) = map (fun j => fval F2 j c) (members ids2 e2)).
    { pose proof (proj1 (same_count D e e2 rows ids rows ids F rows2 ids2 rows2 ids2 F2 L L LF L2 L2 LF2 S1 S1 S3)) as EL.
      rewrite <- (TensorFacts.map_nth_seq (members ids e) 0), <- (TensorFacts.map_nth_seq (members ids2 e2) 0) at 1.
      rewrite <- EL, !map_map. apply map_ext_in. intros k Hk. apply in_seq in Hk. apply FS. exists k. repeat split; lia. }
    now rewrite E.
Qed.

(** Example: element 1 of the batch with two elements, and the same points as
    element 0 of another batch whose element 1 is something else. *)
Definition exB_rows : list point := [[3#1;1#1];[1#2;1#2];[0#1;4#1];[9#10;9#10]].
Definition exB_ids : list nat := [1;0;1;0].
Definition exB_centers : list point := [[0#1;0#1];[3#1;3#1]].
Definition exB_cids : list nat := [0;1].
Definition exB_F : list (list R) := [[0%R;1%R];[9%R;10%R];[2%R;2%R];[11%R;12%R]].
Lemma exB_workable : workable (1#1000) 2 1 exB_rows exB_ids (seg 2 exB_rows exB_ids 2) exB_centers exB_cids (seg 2 exB_centers exB_cids 2).
Proof.
  constructor.
  - exists 2. split; [apply seg_cloud; repeat constructor|]. split; [repeat constructor|].
    exists [5%Z;5%Z]. split; [reflexivity|]. split; [vm_compute; discriminate|]. intros d Hd. destruct d as [|[|d]]; [| |lia]; (split; [cbn; lia|]);
    intros i j Hi Hj _; cbn in Hi, Hj;
    do 4 (destruct i as [|i]; [do 4 (destruct j as [|j]; [vm_compute; discriminate|]); lia|]); lia.
  - exists 0%Q, 2. apply seg_cloud; repeat constructor.
  - lia.
  - reflexivity.
  - split; vm_compute; congruence.
  - split; [discriminate|vm_compute; reflexivity].
  - discriminate.
Qed.
Example C56_layers_partial_ex_proof :
  workable (1#1000) 2 1 exN_rows exN_ids (seg 2 exN_rows exN_ids 2) exN_centers exN_cids (seg 2 exN_centers exN_cids 2) /\
  workable (1#1000) 2 1 exB_rows exB_ids (seg 2 exB_rows exB_ids 2) exB_centers exB_cids (seg 2 exB_centers exB_cids 2) /\
  given (Feat 2 (inr exN_F)) (seg 2 exN_rows exN_ids 2) 2 exN_F /\ given (Feat 2 (inr exB_F)) (seg 2 exB_rows exB_ids 2) 2 exB_F /\
  same_element 1 exN_rows exN_ids 0 exB_rows exB_ids /\ element 1 exN_rows exN_ids = [[1#2;1#2];[9#10;9#10]] /\
  same_element 1 exN_centers exN_cids 0 exB_centers exB_cids /\ same_element 1 exN_F exN_ids 0 exB_F exB_ids.
Proof.
  split; [exact exN_workable|]. split; [exact exB_workable|]. split; [exact exN_given|]. split; [split; [|split]; reflexivity|].
  repeat split; reflexivity.
Qed.
Example C56_pointwise_ex_proof :
  cloud GPU (1#1000) 2 exN_rows exN_ids 2 (seg 2 exN_rows exN_ids 2) /\
  cloud GPU (1#1000) 2 exB_rows exB_ids 2 (seg 2 exB_rows exB_ids 2) /\
  given (Feat 2 (inr exN_F)) (seg 2 exN_rows exN_ids 2) 2 exN_F /\ given (Feat 2 (inr exB_F)) (seg 2 exB_rows exB_ids 2) 2 exB_F /\
  same_element 1 exN_rows exN_ids 0 exB_rows exB_ids /\ same_element 1 exN_F exN_ids 0 exB_F exB_ids.
Proof.
  split; [apply seg_cloud; repeat constructor|]. split; [apply seg_cloud; repeat constructor|]. split; [exact exN_given|].
  split; [split; [|split]; reflexivity|]. split; reflexivity.
Qed.
