(** The neighborhoods the layers build hold exactly the pairs closer than the
    radius, and their densities are the kernel density estimates. *)
From Coq Require Import List Arith ZArith QArith Reals Qreals Lia Lra Bool Permutation.
From Verif Require Import Tensor TensorFacts Spec PointCloud SpecCloud QFacts Grid SpecGrid GridFacts
  Neighbors SpecNeighbors NeighborFacts NeighborProofs Neighborhood NeighborhoodFacts NeighborhoodProofs
  Sampling SpecSampling SamplingFacts Hierarchy SpecHierarchy HierarchyFacts Pdf SpecPdf PdfFacts PdfProofs RTensor RTensorFacts Layers SpecLayers LayerFacts.
Import ListNotations.
Local Open Scope nat_scope.

Lemma nbh_pairs eps D rows ids B cs g ceps crows cids CB cp radii mx n :
  usable eps D rows ids B cs g -> cloud GPU ceps D crows cids CB cp ->
  cids <> [] -> Forall (fun b => b < B) cids -> radii_match D radii cs ->
  snd (mk_nbh (find_neighbors_tf GPU) g radii (Some cp) mx) = Ok n ->
  pairs_of D (nth 0 (all_dims D radii) 0%Q) rows ids crows cids n /\ rshape (nranges n) = shape_of (length cids).
Proof.
  intros Hu Hc Hne HcB Hr E.
  destruct (mk_nbh_tf eps D rows ids B cs g ceps crows cids CB cp radii mx (Some cp) Hu Hc Hne HcB Hr (or_introl eq_refl))
    as (n' & E' & _ & Es & _ & _ & N1 & N2 & N3 & Ef & _).
  rewrite E in E'. injection E' as <-.
  pose proof (grid_for_is _ _ _ _ _ _ _ _ (us_sizes _ _ _ _ _ _ _ Hu) (us_grid _ _ _ _ _ _ _ Hu)) as G.
  pose proof (us_dim _ _ _ _ _ _ _ Hu) as HD.
  destruct (to_original_spec _ _ _ _ _ _ _ _ _ crows cids (nnbs n) G N1 N3) as [O1 O2]. rewrite <- N2 in O1, O2.
  pose proof (cloud_is _ _ _ _ _ _ _ Hc) as Hpi.
  split.
  - constructor; auto.
    + now rewrite N2, to_original_snd.
    + rewrite Es, (ic_pts _ _ _ _ _ _ _ Hpi). apply Hpi.
  - pose proof (ig_cells_pos _ _ _ _ _ _ _ _ G) as Hpos. destruct Hr as (R0 & R1 & R2).
    assert (P0 : (0 < nth 0 (all_dims D radii) 0)%Q) by (rewrite R0; apply Hpos; lia).
    assert (P1 : (0 < nth 1 (all_dims D radii) 0)%Q) by (rewrite R1; apply Hpos; lia).
    destruct (nth1_pos _ P1) as (r0 & r1 & rr & Er). rewrite Er in P0, P1. cbn [nth] in P0, P1.
    destruct (find_tf_sound GPU eps D rows ids B _ g G crows cids cp radii mx
     (ic_pts _ _ _ _ _ _ _ Hpi) (ic_bids _ _ _ _ _ _ _ Hpi) (ic_dim _ _ _ _ _ _ _ Hpi) (ic_len _ _ _ _ _ _ _ Hpi)
     (ic_rows _ _ _ _ _ _ _ Hpi) HcB r0 r1 rr Er P0 P1 (nranges n) (nnbs n) Ef)
    as (_ & _ & _ & Hs & _). exact Hs.
Qed.

Lemma all_dims_repeat D (r : Q) : all_dims D (repeat r D) = repeat r D.
Proof. destruct D as [|[|D]]; reflexivity. Qed.
Lemma all_axes_repeat D (r : R) : all_axes D (repeat r D) = repeat r D.
Proof. destruct D as [|[|D]]; reflexivity. Qed.
Lemma nth_repeat_lt {A} (x d : A) n k : k < n -> nth k (repeat x n) d = x.
Proof. revert k. induction n as [|n IH]; intros [|k] H; cbn; [lia..|reflexivity|]. apply IH. lia. Qed.

(** The grid and the neighborhood of a layer with radius [r]. *)
Lemma workable_nbh eps D r rows ids pin crows cids pout :
  workable eps D r rows ids pin crows cids pout ->
  exists g n B, mk_grid GPU eps pin (repeat r D) = Ok g /\ Forall (fun b => b < B) cids /\ usable eps D rows ids B (repeat r D) g /\
    snd (mk_nbh (find_neighbors_tf GPU) g (repeat r D) (Some pout) 0) = Ok n /\
    radii_match D (repeat r D) (repeat r D) /\ valid_sizes D (repeat r D) /\
    pairs_of D r rows ids crows cids n /\ rshape (nranges n) = shape_of (length cids).
Proof.
  intros [(B & Hc & HcB & Hfc) (ceps & CB & Ho) HD Hr [He Hfl] [Hne HN] Hcne].
  assert (Hgs : good_sizes D (repeat r D)).
  { split; [destruct D; [lia|discriminate]|]. split; [now rewrite repeat_length|].
    split; [apply Forall_forall; intros x Hx; apply repeat_spec in Hx; now subst|].
    rewrite (nth_repeat_lt r 0%Q D 0) by lia. rewrite (nth_repeat_lt r) by lia. apply Qle_refl. }
  assert (Ef : filled_with_first D (repeat r D) = repeat r D).
  { unfold filled_with_first. rewrite repeat_length, Nat.sub_diag. apply app_nil_r. }
  destruct (filled_good D _ HD Hgs) as [Hv Hm]. rewrite Ef in Hv, Hm.
  destruct (mk_grid_ok GPU eps D rows ids B pin (repeat r D) (cloud_is _ _ _ _ _ _ _ Hc) Hv) as (g & Eg & _).
  assert (Hu : usable eps D rows ids B (repeat r D) g).
  { rewrite <- Ef. eapply level_usable; eauto; rewrite Ef; auto. }
  destruct (mk_nbh_tf eps D rows ids B (repeat r D) g ceps crows cids CB pout (repeat r D) 0 (Some pout) Hu Ho Hcne HcB Hm (or_introl eq_refl))
    as (n & En & _).
  exists g, n, B. split; [exact Eg|]. split; [exact HcB|]. split; [exact Hu|]. split; [exact En|]. split; [exact Hm|]. split; [exact Hv|].
  destruct (nbh_pairs eps D rows ids B (repeat r D) g ceps crows cids CB pout (repeat r D) 0 n Hu Ho Hcne HcB Hm En) as [P1 P2].
  rewrite all_dims_repeat, (nth_repeat_lt r) in P1 by lia. split; assumption.
Qed.

Lemma layer_nbh_ok eps D r rows ids pin crows cids pout :
  workable eps D r rows ids pin crows cids pout ->
  exists n, layer_nbh GPU eps (find_neighbors_tf GPU) D pin pout r None = Ok (DNbh n None) /\
    pairs_of D r rows ids crows cids n /\ rshape (nranges n) = shape_of (length cids) /\
    forall dev bw, (0 < bw)%R ->
      snd (get_pdf dev (find_neighbors_tf GPU) (compute_pdf_tf dev) (DNbh n None) (repeat bw D) KConstant false)
      = Ok (map (fun q => density D (repeat bw D) (repeat r D) rows ids (fst q)) (norig n)).
Proof.
  intros W. destruct (workable_nbh _ _ _ _ _ _ _ _ _ W) as (g & n & B & Eg & HcB & Hu & En & Hm & Hv & P1 & P2).
  exists n. unfold layer_nbh. rewrite Eg. cbn [bind]. rewrite En. cbn [bind]. split; [reflexivity|]. split; [exact P1|]. split; [exact P2|].
  intros dev bw Hb. destruct W as [_ (ceps & CB & Ho) HD Hr _ [Hne HN] Hcne].
  assert (Hvb : valid_bandwidth D (repeat bw D)).
  { split; rewrite all_axes_repeat; [apply repeat_length|]. apply Forall_forall. intros x Hx. apply repeat_spec in Hx. now subst. }
  rewrite (C28_get_pdf_partial_proof dev eps D rows ids B (repeat r D) g ceps crows cids CB pout (repeat r D) 0 (Some pout) n []
     (repeat bw D) KConstant false Hu Hm Hv Hne (or_intror (conj eq_refl (conj Ho (conj Hcne HcB)))) En (Forall_nil _) Hvb : snd (get_pdf _ _ _ (DNbh n None) _ _ _) = _).
  cbn [effective fold_left fst snd]. f_equal. apply map_ext. intros q. unfold row_density.
  rewrite all_axes_repeat, all_dims_repeat. field.
Qed.
