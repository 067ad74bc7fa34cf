(** Proofs of the convolution formulas (C34). The statements are copied
    verbatim into PropertiesConv.v. *)
From Coq Require Import String List Arith ZArith QArith Reals Qreals Lia Lra Bool Permutation.
From Verif Require Import Tensor TensorFacts Spec SpecText TextFacts PointCloud SpecCloud PointCloudFacts QFacts Grid SpecGrid GridFacts
  Neighbors SpecNeighbors NeighborFacts NeighborProofs Neighborhood NeighborhoodFacts NeighborhoodProofs
  Sampling SpecSampling SamplingFacts SamplingProofs Hierarchy SpecHierarchy HierarchyFacts Pdf SpecPdf PdfFacts PdfProofs
  RTensor RTensorFacts Layers SpecLayers LayerFacts LayerLink LayerProofs.
Import ListNotations.
Local Open Scope nat_scope.

Lemma activation_name name a : activation name a -> non_linearity name = Ok a.
Proof.
  assert (L : forall names, Forall (fun n => lower n = n) names -> means name names -> In (lower name) names)
    by (intros names H; apply means_lower, H).
  unfold non_linearity. intros [[H ->]|[[H ->]|[H ->]]]; apply L in H; [|repeat constructor..|].
  all: try (repeat constructor; fail).
  - destruct H as [<-|[]]. reflexivity.
  - destruct H as [<-|[<-|[<-|[]]]]; reflexivity.
  - destruct H as [<-|[]]. reflexivity.
Qed.
Lemma activation_other name : (forall a, ~ activation name a) -> non_linearity name = Err KeyError.
Proof.
  intros H. unfold non_linearity.
  assert (Hn : forall n, lower n = n -> ~ means name [n] -> String.eqb (lower name) n = false).
  { intros n En Hm. apply not_true_iff_false. intros E. apply String.eqb_eq in E. apply Hm.
    apply means_lower; [repeat constructor; exact En|]. rewrite E. now left. }
  rewrite Hn; [|reflexivity|intros Hm; eapply H; left; split; [exact Hm|reflexivity]].
  destruct (existsb _ _) eqn:E.
  - exfalso. apply existsb_exists in E as (x & Hx & E). apply String.eqb_eq in E. eapply H. right. left. split; [|reflexivity].
    apply means_lower; [repeat constructor|]. rewrite E. exact Hx.
  - rewrite Hn; [reflexivity|reflexivity|]. intros Hm. eapply H. right. right. split; [exact Hm|reflexivity].
Qed.
Lemma weighting_name name wt : weighting name wt -> kernel_interpolation name = Ok wt.
Proof. intros [[-> ->]|[-> ->]]; reflexivity. Qed.

(** C34, MCConv: for centers and points of two clouds, the output is
    the sum over the points within the radius of the features times the kernel
    MLPs of the difference divided by the radius, divided by the density. *)
Lemma C34_mcconv_partial_proof :
  forall eps D r rows ids pin crows cids pout cin cout mlps sizes act a w b fw layer feats F bandwidth return_sorted return_padded,
    workable eps D r rows ids pin crows cids pout ->
    mk_mcconv cin cout D mlps sizes act w b fw = Ok layer -> 0 < cout -> activation act a ->
    given feats pin cin F -> (0 < bandwidth)%R ->
    mcconv_call GPU eps (find_neighbors_tf GPU) (compute_pdf_tf GPU) layer feats pin pout r None bandwidth return_sorted return_padded
    = returned pout return_sorted return_padded cout (table (length cids) cout
        (mc_formula D r rows ids crows cids F cin cout mlps sizes a w b fw r
           (fun p _ => density D (repeat bandwidth D) (repeat r D) rows ids p))).
Proof.
  intros eps D r rows ids pin crows cids pout cin cout mlps sizes act a w b fw l feats F bw srt pad W El Hc Ha Hg Hb.
  destruct (layer_nbh_ok _ _ _ _ _ _ _ _ _ W) as (n & En & P & _ & Hpdf). specialize (Hpdf GPU bw Hb).
  destruct W as [(B' & Hci & _) (ceps & CB & Ho) HD _ _ _ _].
  pose proof (cloud_is _ _ _ _ _ _ _ Hci) as Hi. pose proof (cloud_is _ _ _ _ _ _ _ Ho) as Hio.
  pose proof El as El'. apply mk_mcconv_inv in El'. destruct El' as (_ & _ & _ & _ & _ & _ & Eq).
  unfold mcconv_call. replace (mc_in l) with cin by now rewrite Eq. replace (mc_dims l) with D by now rewrite Eq.
  destruct Hg as (Hg1 & Hg2 & Hg3). rewrite Hg1, Nat.eqb_refl. cbn [negb].
  rewrite (given_flat feats pin cin F) by (split; auto). cbn [bind]. rewrite En. cbn [bind]. rewrite Hpdf. cbn [bind dn].
  rewrite (scaled_diffs_pairs D r r rows ids crows cids n pin pout P) by (first [apply Hi|apply Hio]). cbn [bind].
  rewrite (ic_pts _ _ _ _ _ _ _ Hi), (ic_len _ _ _ _ _ _ _ Hi).
  rewrite (monte_carlo_ok D r rows ids crows cids n P GPU cin cout D mlps sizes act a w b fw l
     (fun q d => (delta rows crows (fst q) (snd q) d / Q2R r)%R)); auto using activation_name; [|lia].
  cbn [bind]. rewrite layer_output_table. reflexivity.
Qed.

(** C34, MCConv with a neighborhood made before, possibly with another radius
    and with densities computed before: the points within the radius of the
    neighborhood contribute, divided by the stored density. *)
Lemma C34_mcconv_neighborhood_partial_proof :
  forall eps D rows ids B cs g ceps crows cids CB pin pout radii max_neighbors n calls r
         cin cout mlps sizes act a w b fw layer feats F bandwidth return_sorted return_padded,
    usable eps D rows ids B cs g -> radii_match D radii cs -> valid_sizes D radii -> ids <> [] ->
    (exists eps' B', cloud GPU eps' D rows ids B' pin) ->
    cloud GPU ceps D crows cids CB pout -> cids <> [] -> Forall (fun b => b < B) cids ->
    snd (mk_nbh (find_neighbors_tf GPU) g radii (Some pout) max_neighbors) = Ok n ->
    Forall (fun c => valid_bandwidth D (call_bw c)) calls ->
    mk_mcconv cin cout D mlps sizes act w b fw = Ok layer -> 0 < cout -> activation act a ->
    given feats pin cin F -> (0 < bandwidth)%R ->
    let search := find_neighbors_tf GPU in let kde := compute_pdf_tf GPU in
    let args := match effective calls with Some a => a | None => ([bandwidth], KConstant, false) end in
    mcconv_call GPU eps search kde layer feats pin pout r (Some (pdf_run GPU search kde (DNbh n None) calls))
      bandwidth return_sorted return_padded
    = returned pout return_sorted return_padded cout (table (length cids) cout
        (mc_formula D (nth 0 (all_dims D radii) 0%Q) rows ids crows cids F cin cout mlps sizes a w b fw r
           (fun p i => row_density D (all_dims D radii) rows ids (norig n) (fst (fst args)) (snd (fst args)) (snd args) (p, i)))).
Proof.
  intros eps D rows ids B cs g ceps crows cids CB pin pout radii mx n calls r cin cout mlps sizes act a w b fw l feats F bw srt pad
    Hu Hr Hv Hne (eps' & B' & Hci) Ho Hcne HcB En HF El Hc Ha Hg Hb search kde args.
  pose proof (us_dim _ _ _ _ _ _ _ Hu) as HD.
  destruct (nbh_pairs _ _ _ _ _ _ _ _ _ _ _ _ _ _ _ Hu Ho Hcne HcB Hr En) as [P _].
  assert (Hvb : valid_bandwidth D (repeat bw D)).
  { split; rewrite all_axes_repeat; [apply repeat_length|]. apply Forall_forall. intros x Hx. apply repeat_spec in Hx. now subst. }
  pose proof (C28_get_pdf_partial_proof GPU eps D rows ids B cs g ceps crows cids CB pout radii mx (Some pout) n calls
     (repeat bw D) KConstant false Hu Hr Hv Hne (or_intror (conj eq_refl (conj Ho (conj Hcne HcB)))) En HF Hvb) as Hpdf.
  cbv zeta in Hpdf. fold search in Hpdf. fold kde in Hpdf.
  assert (Hdn : dn (pdf_run GPU search kde (DNbh n None) calls) = n).
  { unfold search, kde. erewrite run_ok by eauto. reflexivity. }
  assert (Hargs : snd (get_pdf GPU search kde (pdf_run GPU search kde (DNbh n None) calls) (repeat bw D) KConstant false) =
    Ok (map (row_density D (all_dims D radii) rows ids (norig n) (fst (fst args)) (snd (fst args)) (snd args)) (norig n))).
  { rewrite Hpdf. unfold args. destruct (effective calls) as [e|]; [reflexivity|]. f_equal. apply map_ext. intros q.
    unfold row_density. cbn [fst snd]. now rewrite all_axes_repeat. }
  clear Hpdf.
  pose proof (cloud_is _ _ _ _ _ _ _ Hci) as Hi. pose proof (cloud_is _ _ _ _ _ _ _ Ho) as Hio.
  pose proof El as El'. apply mk_mcconv_inv in El'. destruct El' as (_ & _ & _ & _ & _ & _ & Eq).
  unfold mcconv_call. replace (mc_in l) with cin by now rewrite Eq. replace (mc_dims l) with D by now rewrite Eq.
  destruct Hg as (Hg1 & Hg2 & Hg3). rewrite Hg1, Nat.eqb_refl. cbn [negb].
  rewrite (given_flat feats pin cin F) by (split; auto). cbn [bind layer_nbh]. rewrite Hargs. cbn [bind]. rewrite Hdn.
  rewrite (scaled_diffs_pairs D _ r rows ids crows cids n pin pout P) by (first [apply Hi|apply Hio]). cbn [bind].
  rewrite (ic_pts _ _ _ _ _ _ _ Hi), (ic_len _ _ _ _ _ _ _ Hi).
  rewrite (monte_carlo_ok D _ rows ids crows cids n P GPU cin cout D mlps sizes act a w b fw l
     (fun q d => (delta rows crows (fst q) (snd q) d / Q2R r)%R)); auto using activation_name; [|lia].
  cbn [bind]. rewrite layer_output_table. reflexivity.
Qed.

(** C34, PointConv. *)
Lemma C34_pointconv_partial_proof :
  forall eps D r rows ids pin crows cids pout cin cout hidden act a axis bias w w1 b1 w2 b2 feats F bandwidth mx
         return_sorted return_padded,
    workable eps D r rows ids pin crows cids pout -> 2 <= length cids -> 0 < cin -> 0 < hidden -> activation act a ->
    given feats pin cin F -> (0 < bandwidth)%R ->
    let dens := density D (repeat bandwidth D) (repeat r D) rows ids in
    (forall i, i < length cids -> near_points D r rows ids crows cids i <> [] ->
       is_max (map dens (near_points D r rows ids crows cids i)) (mx i)) ->
    pointconv_call GPU eps (find_neighbors_tf GPU) (compute_pdf_tf GPU)
      (mk_pointconv cin cout D hidden act axis bias w w1 b1 w2 b2) feats pin pout r None bandwidth return_sorted return_padded
    = returned pout return_sorted return_padded cout (table (length cids) cout
        (pt_formula D r rows ids crows cids F cin hidden a axis bias w w1 b1 w2 b2 (fun p _ => dens p) mx)).
Proof.
  intros eps D r rows ids pin crows cids pout cin cout hidden act a axis bias w w1 b1 w2 b2 feats F bw mx srt pad
    W Hn Hcin Hhid Ha Hg Hb dens Hmx.
  destruct (layer_nbh_ok _ _ _ _ _ _ _ _ _ W) as (n & En & P & Hrs & Hpdf). specialize (Hpdf GPU bw Hb).
  destruct W as [(B' & Hci & _) (ceps & CB & Ho) HD Hr _ _ _].
  pose proof (cloud_is _ _ _ _ _ _ _ Hci) as Hi. pose proof (cloud_is _ _ _ _ _ _ _ Ho) as Hio.
  unfold pointconv_call. cbn [pt_dims mk_pointconv].
  rewrite (given_flat feats pin cin F Hg). cbn [bind]. rewrite En. cbn [bind]. rewrite Hpdf. cbn [bind dn].
  rewrite (point_diffs_pairs D r rows ids crows cids n pin pout P) by (first [apply Hi|apply Hio]). cbn [bind].
  rewrite (ic_pts _ _ _ _ _ _ _ Hi), (ic_len _ _ _ _ _ _ _ Hi).
  assert (Hrs' : rshape (nranges n) = [length cids]).
  { rewrite Hrs. unfold shape_of. destruct (length cids) as [|[|k]]; [lia..|reflexivity]. }
  change (PointConv cin cout D hidden act (ttab [D; hidden] axis) (ttab [1; hidden] bias)
      (ttab [hidden * cin; cout] w) (ttab [1; 16] w1) (ttab [1; 16] b1) (ttab [16; 1] w2) (ttab [1; 1] b2))
    with (mk_pointconv cin cout D hidden act axis bias w w1 b1 w2 b2).
  rewrite (point_conv_ok D r rows ids crows cids n P GPU cin cout hidden act a axis bias w w1 b1 w2 b2
     (fun q d => delta rows crows (fst q) (snd q) d)); auto using activation_name; [|lia|lia].
  cbn [bind]. rewrite layer_output_table. f_equal. unfold table. apply map_ext_in. intros i Hin. apply in_seq in Hin.
  apply map_ext. intros o. unfold pt_formula, weighted_sum. apply sum_over_ext. intros c _. apply sum_over_ext. intros h _.
  f_equal. apply sum_over_ext. intros p Hp. cbn [fst snd]. fold dens.
  assert (Em : red_max (map (fun p => dens p) (near_points D r rows ids crows cids i)) = mx i).
  { assert (Hne' : near_points D r rows ids crows cids i <> []) by (intros E; rewrite E in Hp; exact Hp).
    eapply max_unique; [|apply Hmx; [lia|exact Hne']]. change (map dens) with (map (fun p => dens p)). apply red_max_ok.
    - intros E. apply map_eq_nil in E. auto.
    - apply Forall_map, Forall_forall. intros j Hj. apply Rle_trans with 0%R.
      + unfold rlowest. assert (0 <= Q2R flt_max)%R; [|lra]. replace 0%R with (Q2R 0) by (unfold Q2R; cbn; lra).
        apply Qle_Rle. unfold flt_max. vm_compute. discriminate.
      + apply Rlt_le, density_pos.
        * apply repeat_length.
        * apply Forall_forall. intros x Hx. apply repeat_spec in Hx. now subst.
        * now rewrite nth_repeat_lt by lia.
        * unfold near_points in Hj. apply filter_In in Hj as [Hj _]. apply in_seq in Hj. lia. }
  now rewrite Em.
Qed.

(** C34, PointConv. With a single output point the call fails. *)
Lemma C34_pointconv_single_refuted_proof :
  forall eps D r rows ids pin crows cids pout cin cout hidden act a axis bias w w1 b1 w2 b2 feats F bandwidth
         return_sorted return_padded,
    workable eps D r rows ids pin crows cids pout -> length cids = 1 -> activation act a ->
    given feats pin cin F -> (0 < bandwidth)%R ->
    pointconv_call GPU eps (find_neighbors_tf GPU) (compute_pdf_tf GPU)
      (mk_pointconv cin cout D hidden act axis bias w w1 b1 w2 b2) feats pin pout r None bandwidth return_sorted return_padded
    = Err InvalidArgument.
Proof.
  intros eps D r rows ids pin crows cids pout cin cout hidden act a axis bias w w1 b1 w2 b2 feats F bw srt pad W Hn Ha Hg Hb.
  destruct (layer_nbh_ok _ _ _ _ _ _ _ _ _ W) as (n & En & P & Hrs & Hpdf). specialize (Hpdf GPU bw Hb).
  destruct W as [(B' & Hci & _) (ceps & CB & Ho) HD Hr _ _ _].
  pose proof (cloud_is _ _ _ _ _ _ _ Hci) as Hi. pose proof (cloud_is _ _ _ _ _ _ _ Ho) as Hio.
  unfold pointconv_call. cbn [pt_dims mk_pointconv].
  rewrite (given_flat feats pin cin F Hg). cbn [bind]. rewrite En. cbn [bind]. rewrite Hpdf. cbn [bind dn].
  rewrite (point_diffs_pairs D r rows ids crows cids n pin pout P) by (first [apply Hi|apply Hio]). cbn [bind].
  unfold point_conv, pt_basis, pt_output. cbn [pt_axis pt_bias pt_act mk_pointconv]. rewrite tmatmul2_ttab. cbn [bind].
  rewrite (tbin_ttab _ _ _ [length (norig n); hidden]) by bc. cbn [bind]. rewrite (activation_name _ _ Ha). cbn [bind].
  rewrite Hrs, Hn. reflexivity.
Qed.

Lemma rmin_perm z l m : Permutation l m -> fold_right Rmin z l = fold_right Rmin z m.
Proof.
  induction 1; cbn [fold_right]; [reflexivity|congruence| |congruence].
  rewrite !Rmin_assoc. f_equal. apply Rmin_comm.
Qed.

Section KPCore.
  Context (D : nat) (r0 : Q) (rows : list point) (ids : list nat) (crows : list point) (cids : list nat) (n : nbh).
  Context (P : pairs_of D r0 rows ids crows cids n).
  Context (cin cout K : nat) (deformable : bool) (wt : R -> R -> R) (kernel_points : nat -> nat -> R)
          (w wo : list nat -> R) (F : list (list R)) (r : Q) (sigma : R).
  Context (Hcin : cin <> 0) (HK : K <> 0).
  Let start := fun (_ k d : nat) => (kernel_points k d * (3 / 4))%R.
  Let conv := kp_formula D r0 rows ids crows cids F cin K.
  Let moves := fun i k d => conv wo (fun v => wt v sigma) start r i (k * D + d).
  Let positions := fun i k d => if deformable then (start i k d + moves i k d)%R else start i k d.
  Let layer := KPConv cin cout K D wt
     (tmap (fun x => (x * (3 / 4))%R) (ttab [K; D] (fun idx => match idx with [k; d] => kernel_points k d | _ => 0%R end)))
     (if deformable then Some (ttab [K * cin; K * D] wo) else None) (ttab [K * cin; cout] w).
  Let M := length (norig n).
  Let inputs := ttab [M; D] (fun idx => match idx with
    | [m; d] => let q := nth m (norig n) (0, 0) in (delta rows crows (fst q) (snd q) d / Q2R r)%R | _ => 0%R end).
  Let feats := ttab [length ids; cin] (fun idx => match idx with [i; j] => fval F i j | _ => 0%R end).

  Lemma kp_pts : kp_points layer = ttab [kp_num layer; kp_dims layer] (fun idx => match idx with
    | [k; d] => (fun k d => (kernel_points k d * (3 / 4))%R) k d | _ => 0%R end).
  Proof using.
    unfold layer. cbn [kp_points kp_num kp_dims]. rewrite tmap_ttab. apply ttab_ext. intros idx Hi. now idx_inv.
  Qed.

  Definition kp_dist (q : nat * nat) (k : nat) : R :=
    norm D (fun d => delta rows crows (fst q) (snd q) d / Q2R r - positions (snd q) k d)%R.

  Lemma kp_core : exists offs d o,
    match kp_deform layer with
    | None => Ok None
    | Some wo => o <- kernel_offsets GPU layer wo inputs sigma n feats (length cids) ;; Ok (Some o)
    end = Ok offs /\
    kp_dists layer inputs (match offs with Some o => Some (snd o) | None => None end) = Ok d /\
    kp_aggregate GPU layer d sigma n feats (kp_w layer) = Ok o /\
    o = ttab [length cids; cout] (fun idx => match idx with
      | [i; o] => conv w (fun v => wt v sigma) positions r i o | _ => 0%R end) /\
    d = ttab [M; K] (fun idx => match idx with [m; k] => kp_dist (nth m (norig n) (0, 0)) k | _ => 0%R end) /\
    match offs with Some o => Some (fst o) | None => None end =
      (if deformable then Some (ttab [length cids; K; D] (fun idx => match idx with [i; k; d] => moves i k d | _ => 0%R end)) else None).
  Proof.
    pose proof (kp_aggregate_ok D r0 rows ids crows cids n P layer Hcin HK GPU sigma
      (fun idx => match idx with [i; j] => fval F i j | _ => 0%R end)) as Hagg.
    change (kp_in layer) with cin in Hagg. change (kp_num layer) with K in Hagg. fold M in Hagg. fold feats in Hagg.
    change (kp_weighting layer) with wt in Hagg.
    assert (Hlast : forall d, d = ttab [M; K] (fun idx => match idx with [m; k] => kp_dist (nth m (norig n) (0, 0)) k | _ => 0%R end) ->
      exists o, kp_aggregate GPU layer d sigma n feats (kp_w layer) = Ok o /\
      o = ttab [length cids; cout] (fun idx => match idx with
        | [i; o] => conv w (fun v => wt v sigma) positions r i o | _ => 0%R end)).
    { intros d ->. eexists. split.
      - change (kp_w layer) with (ttab [K * cin; cout] w). apply (Hagg w cout _ kp_dist). intros m k _ _. reflexivity.
      - apply ttab_ext. intros idx Hi. now idx_inv. }
    assert (Ed : deformable = true \/ deformable = false) by (clear; destruct deformable; auto). destruct Ed as [Ed | Ed].
    - pose proof (kp_dists_ok n layer _ kp_pts (fun idx => match idx with
         | [m; d] => let q := nth m (norig n) (0, 0) in (delta rows crows (fst q) (snd q) d / Q2R r)%R | _ => 0%R end)
         (fun q d => (delta rows crows (fst q) (snd q) d / Q2R r)%R)) as Hd0.
      specialize (Hd0 ltac:(intros; reflexivity)). change (kp_dims layer) with D in Hd0. change (kp_num layer) with K in Hd0.
      fold M in Hd0. fold inputs in Hd0.
      replace (kp_deform layer) with (Some (ttab [K * cin; K * D] wo)) by (unfold layer; cbn [kp_deform]; now rewrite Ed).
      unfold kernel_offsets, kp_offsets. rewrite Hd0. cbn [bind].
      rewrite (Hagg wo (K * D) _ (fun q k => norm D (fun d => delta rows crows (fst q) (snd q) d / Q2R r - start (snd q) k d)%R))
        by (intros; reflexivity).
      cbn [bind]. change (kp_num layer) with K. change (kp_dims layer) with D.
      set (off := fun idx : list nat => match idx with [i; o] => conv wo (fun v => wt v sigma) start r i o | _ => 0%R end).
      rewrite (ttab_ext [length cids; K * D] _ off) by (intros idx Hi; now idx_inv).
      rewrite (treshape_ttab [length cids; K * D] [length cids; K; D] off (fun idx => match idx with [i; k; d] => [i; k * D + d] | _ => [] end)).
      2:{ rewrite !nprod_cons, nprod_nil. lia. }
      2:{ intros idx Hi. idx_inv. split; [in_sh; nia|]. cbn [offset]. rewrite !nprod_cons, nprod_nil. nia. }
      cbn [bind]. rewrite tgather_ttab by apply (pairs_snd _ _ _ _ _ _ _ P). cbn [bind]. rewrite map_length. fold M.
      rewrite (treshape_ttab [M; K * D] [M; K; D] _ (fun idx => match idx with [i; k; d] => [i; k * D + d] | _ => [] end)).
      2:{ rewrite !nprod_cons, nprod_nil. lia. }
      2:{ intros idx Hi. idx_inv. split; [in_sh; nia|]. cbn [offset]. rewrite !nprod_cons, nprod_nil. nia. }
      cbn [bind]. eexists. eexists.
      pose proof (kp_dists_moved n layer _ kp_pts (fun idx => match idx with
         | [m; d] => let q := nth m (norig n) (0, 0) in (delta rows crows (fst q) (snd q) d / Q2R r)%R | _ => 0%R end)
         (fun q d => (delta rows crows (fst q) (snd q) d / Q2R r)%R) moves) as Hd1.
      change (kp_dims layer) with D in Hd1. change (kp_num layer) with K in Hd1. fold M in Hd1. fold inputs in Hd1.
      assert (Ed1 : forall d, d = ttab [M; K] (fun idx => match idx with [m; k] => kp_dist (nth m (norig n) (0, 0)) k | _ => 0%R end) ->
        exists o, kp_aggregate GPU layer d sigma n feats (kp_w layer) = Ok o /\
        o = ttab [length cids; cout] (fun idx => match idx with
          | [i; o] => conv w (fun v => wt v sigma) positions r i o | _ => 0%R end)) by exact Hlast.
      edestruct Ed1 as (o & Ho1 & Ho2); [reflexivity|]. exists o. split; [reflexivity|]. cbn [fst snd]. split.
      + apply Hd1; [intros; reflexivity|]. intros m k d Hm Hk Hd. unfold off.
        rewrite (map_nth snd (norig n) (0, 0)). reflexivity.
      + split; [|split; [exact Ho2|split]].
        * etransitivity; [|exact Ho1]. f_equal. apply ttab_ext. intros idx Hi. idx_inv. unfold kp_dist, positions. rewrite Ed. reflexivity.
        * apply ttab_ext. intros idx Hi. idx_inv. unfold kp_dist, positions. rewrite Ed. reflexivity.
        * rewrite Ed. f_equal. apply ttab_ext. intros idx Hi. now idx_inv.
    - replace (kp_deform layer) with (@None ten) by (unfold layer; cbn [kp_deform]; now rewrite Ed).
      exists None. eexists. destruct (Hlast _ eq_refl) as (o & Ho1 & Ho2). exists o. split; [reflexivity|]. split.
      + pose proof (kp_dists_ok n layer _ kp_pts (fun idx => match idx with
         | [m; d] => let q := nth m (norig n) (0, 0) in (delta rows crows (fst q) (snd q) d / Q2R r)%R | _ => 0%R end)
         (fun q d => (delta rows crows (fst q) (snd q) d / Q2R r)%R)) as Hd0.
        apply Hd0. intros; reflexivity.
      + split; [|split; [exact Ho2|split; [|now rewrite Ed]]].
        * etransitivity; [|exact Ho1]. f_equal. apply ttab_ext. intros idx Hi. idx_inv. unfold kp_dist, positions. rewrite Ed. reflexivity.
        * apply ttab_ext. intros idx Hi. idx_inv. unfold kp_dist, positions. rewrite Ed. reflexivity.
  Qed.

  Lemma kp_loss d N : N = length cids ->
    d = ttab [M; K] (fun idx => match idx with [m; k] => kp_dist (nth m (norig n) (0, 0)) k | _ => 0%R end) ->
    regularization_loss GPU layer (KPState sigma N d (norig n)
      (if deformable then Some (ttab [length cids; K; D] (fun idx => match idx with [i; k; d] => moves i k d | _ => 0%R end)) else None))
    = if deformable then
        Ok (sum_over (seq 0 (length cids)) (fun i => sum_over (seq 0 K) (fun k =>
              fold_right Rmin (Q2R flt_max) (map (fun p =>
                (norm D (fun d => delta rows crows p i d / Q2R r - positions i k d) / sigma) ^ 2)
                (near_points D r0 rows ids crows cids i)))) +
            sum_over (seq 0 (length cids)) (fun i => sum_over (seq 0 K) (fun k => sum_over (seq 0 K) (fun k' =>
              if k =? k' then 0 else wt (norm D (fun d => positions i k' d - positions i k d)) sigma))))%R
      else Err AttributeError.
  Proof using P.
    clear Hcin HK. intros -> ->. unfold regularization_loss. cbn [ks_sigma ks_dists ks_nbs ks_num ks_offsets].
    rewrite tmap_ttab. rewrite tsegment_ttab; [|now rewrite map_length|apply (pairs_snd _ _ _ _ _ _ _ P)]. cbn [bind].
    rewrite kp_pts. change (kp_num layer) with K. change (kp_dims layer) with D.
    assert (Ed : deformable = true \/ deformable = false) by (clear; destruct deformable; auto). destruct Ed as [Ed | Ed]; rewrite Ed; [|reflexivity].
    rewrite texpand_front. rewrite (tbin_ttab _ _ _ [length cids; K; D]) by bc. cbn [bind].
    rewrite texpand3_1, texpand3_2. rewrite (tbin_ttab _ _ _ [length cids; K; K; D]) by bc. cbn [bind].
    change [length cids; K; K; D] with ([length cids; K; K] ++ [D]). rewrite tnorm_ttab. cbn [bind].
    rewrite tmap_ttab. unfold set_diag0. rewrite ttab_shape. f_equal. rewrite total2, total3. f_equal.
    - apply sum_over_ext. intros i Hi. apply sum_over_ext. intros k Hk. apply in_seq in Hi.
      rewrite (pairs_red D r0 rows ids crows cids n P red_min (fun q => ((kp_dist q k / sigma) ^ 2)%R)); [reflexivity| |lia].
      intros l m Hlm. unfold red_min. apply rmin_perm, Hlm.
    - apply sum_over_ext. intros i Hi. apply sum_over_ext. intros k Hk. apply sum_over_ext. intros k' Hk'.
      apply in_seq in Hi. apply in_seq in Hk. apply in_seq in Hk'.
      destruct (k =? k') eqn:Ekk; [reflexivity|]. rewrite tget_ttab by in_sh. change (kp_weighting layer) with wt. f_equal.
      unfold norm. f_equal. apply sum_over_ext. intros d Hd. apply in_seq in Hd. cbn [app bc_index Nat.eqb].
      rewrite (bc_self (length cids) i), (bc_self K k), (bc_self K k'), (bc_self D d) by lia.
      cbn [bc_index Nat.eqb]. rewrite ?(bc_self (length cids) i), ?(bc_self K k), ?(bc_self K k'), ?(bc_self D d) by lia.
      unfold positions. rewrite Ed. reflexivity.
  Qed.
End KPCore.

Lemma kp_passed D r0 rows ids crows cids n : pairs_of D r0 rows ids crows cids n ->
  forall (cin cout K : nat) (deformable : bool) (wt : R -> R -> R) (kernel_points : nat -> nat -> R) (w wo : list nat -> R)
         (F : list (list R)) (r : Q) x feats pin pout eps (influence : option R) srt pad B' eps' CB ceps nb,
  dn x = n -> cloud GPU eps' D rows ids B' pin -> cloud GPU ceps D crows cids CB pout ->
  cin <> 0 -> K <> 0 -> given feats pin cin F ->
  layer_nbh GPU eps (find_neighbors_tf GPU) D pin pout r nb = Ok x ->
  let layer := KPConv cin cout K D wt
     (tmap (fun x => (x * (3 / 4))%R) (ttab [K; D] (fun idx => match idx with [k; d] => kernel_points k d | _ => 0%R end)))
     (if deformable then Some (ttab [K * cin; K * D] wo) else None) (ttab [K * cin; cout] w) in
    let sigma := match influence with None => 1%R | Some s => (s / Q2R r)%R end in
    let start := fun (_ k d : nat) => (kernel_points k d * (3 / 4))%R in
    let conv := kp_formula D r0 rows ids crows cids F cin K in
    let offset := fun i k d => conv wo (fun v => wt v sigma) start r i (k * D + d) in
    let positions := fun i k d => if deformable then (start i k d + offset i k d)%R else start i k d in
    exists state,
    kpconv_call GPU eps (find_neighbors_tf GPU) layer feats pin pout r nb influence srt pad
    = (o <- returned pout srt pad cout (table (length cids) cout
              (conv w (fun v => wt v sigma) positions r)) ;; Ok (o, state)) /\
    regularization_loss GPU layer state =
      if deformable then
        Ok (sum_over (seq 0 (length cids)) (fun i => sum_over (seq 0 K) (fun k =>
              fold_right Rmin (Q2R flt_max) (map (fun p =>
                (norm D (fun d => delta rows crows p i d / Q2R r - positions i k d) / sigma) ^ 2)
                (near_points D r0 rows ids crows cids i)))) +
            sum_over (seq 0 (length cids)) (fun i => sum_over (seq 0 K) (fun k => sum_over (seq 0 K) (fun k' =>
              if k =? k' then 0 else wt (norm D (fun d => positions i k' d - positions i k d)) sigma))))%R
      else Err AttributeError.
Proof.
  intros P cin cout K deformable wt kernel_points w wo F r x feats pin pout eps influence srt pad B' eps' CB ceps nb
    Ex Hci Ho Hcin HK Hg En layer sigma start conv offset positions.
  pose proof (cloud_is _ _ _ _ _ _ _ Hci) as Hi. pose proof (cloud_is _ _ _ _ _ _ _ Ho) as Hio.
  destruct (kp_core D r0 rows ids crows cids n P cin cout K deformable wt kernel_points w wo F r sigma Hcin HK)
    as (offs & d & o & E1 & E2 & E3 & E4 & E5 & E6).
  exists (KPState sigma (length cids) d (norig n) (match offs with Some o => Some (fst o) | None => None end)). split.
  - unfold kpconv_call. rewrite (given_flat _ _ _ _ Hg). cbn [bind]. change (kp_dims layer) with D. rewrite En. cbn [bind]. rewrite Ex.
    rewrite (scaled_diffs_pairs D r0 r rows ids crows cids n pin pout P) by (first [apply Hi|apply Hio]). cbn [bind].
    rewrite (ic_pts _ _ _ _ _ _ _ Hi), (ic_len _ _ _ _ _ _ _ Hi), (ic_pts _ _ _ _ _ _ _ Hio), (ic_len _ _ _ _ _ _ _ Hio).
    fold sigma. unfold layer. cbv zeta in E1, E2. rewrite E1. cbn [bind]. rewrite E2. cbn [bind]. rewrite E3. cbn [bind]. rewrite E4, layer_output_table. reflexivity.
  - rewrite E6. apply (kp_loss D r0 rows ids crows cids n P cin cout K deformable wt kernel_points w wo F r sigma d (length cids) eq_refl E5).
Qed.

(** C34, KPConv: every kernel point k of center i, at 3/4 of its given position
    (plus, for a deformable layer, the offset that the same kind of
    convolution with the second set of weights gives), contributes the features
    of the points within the radius weighted by their distance to it. *)
Lemma C34_kpconv_partial_proof :
  forall eps D r rows ids pin crows cids pout cin cout K deformable interpolation wt kernel_points w wo spherical layer
         feats F influence return_sorted return_padded,
    workable eps D r rows ids pin crows cids pout ->
    mk_kpconv cin cout K D deformable interpolation
      (Some (ttab [K; D] (fun idx => match idx with [k; d] => kernel_points k d | _ => 0%R end))) spherical w wo = Ok layer ->
    0 < cin -> 0 < K -> weighting interpolation wt -> given feats pin cin F ->
    let sigma := match influence with None => 1%R | Some s => (s / Q2R r)%R end in
    let start := fun (_ k d : nat) => (kernel_points k d * (3 / 4))%R in
    let conv := kp_formula D r rows ids crows cids F cin K in
    let offset := fun i k d => conv wo (fun v => wt v sigma) start r i (k * D + d) in
    let positions := fun i k d => if deformable then (start i k d + offset i k d)%R else start i k d in
    exists state,
    kpconv_call GPU eps (find_neighbors_tf GPU) layer feats pin pout r None influence return_sorted return_padded
    = (o <- returned pout return_sorted return_padded cout (table (length cids) cout
              (conv w (fun v => wt v sigma) positions r)) ;; Ok (o, state)) /\
    regularization_loss GPU layer state =
      if deformable then
        Ok (sum_over (seq 0 (length cids)) (fun i => sum_over (seq 0 K) (fun k =>
              fold_right Rmin (Q2R flt_max) (map (fun p =>
                (norm D (fun d => delta rows crows p i d / Q2R r - positions i k d) / sigma) ^ 2)
                (near_points D r rows ids crows cids i)))) +
            sum_over (seq 0 (length cids)) (fun i => sum_over (seq 0 K) (fun k => sum_over (seq 0 K) (fun k' =>
              if k =? k' then 0 else wt (norm D (fun d => positions i k' d - positions i k d)) sigma))))%R
      else Err AttributeError.
Proof.
  intros eps D r rows ids pin crows cids pout cin cout K deformable interpolation wt kernel_points w wo spherical layer
    feats F influence srt pad W El Hcin HK Hwt Hg sigma start conv offset positions.
  destruct (layer_nbh_ok _ _ _ _ _ _ _ _ _ W) as (n & En & P & _ & _).
  destruct W as [(B' & Hci & _) (ceps & CB & Ho) HD _ _ _ _].
  unfold mk_kpconv in El. rewrite (weighting_name _ _ Hwt) in El. cbn [bind] in El. rewrite andb_false_r in El. cbn [bind] in El.
  injection El as <-.
  apply (kp_passed D r rows ids crows cids n P cin cout K deformable wt kernel_points w wo F r (DNbh n None) feats pin pout eps
     influence srt pad B' eps CB ceps None); auto; lia.
Qed.

(** C34, KPConv with a neighborhood made before, possibly with another radius. *)
Lemma C34_kpconv_neighborhood_partial_proof :
  forall eps D rows ids B cs g ceps crows cids CB pin pout radii max_neighbors n calls r
         cin cout K deformable interpolation wt kernel_points w wo spherical layer feats F influence return_sorted return_padded,
    usable eps D rows ids B cs g -> radii_match D radii cs -> valid_sizes D radii -> ids <> [] ->
    (exists eps' B', cloud GPU eps' D rows ids B' pin) ->
    cloud GPU ceps D crows cids CB pout -> cids <> [] -> Forall (fun b => b < B) cids ->
    snd (mk_nbh (find_neighbors_tf GPU) g radii (Some pout) max_neighbors) = Ok n ->
    Forall (fun c => valid_bandwidth D (call_bw c)) calls ->
    mk_kpconv cin cout K D deformable interpolation
      (Some (ttab [K; D] (fun idx => match idx with [k; d] => kernel_points k d | _ => 0%R end))) spherical w wo = Ok layer ->
    0 < cin -> 0 < K -> weighting interpolation wt -> given feats pin cin F ->
    let search := find_neighbors_tf GPU in
    let sigma := match influence with None => 1%R | Some s => (s / Q2R r)%R end in
    let start := fun (_ k d : nat) => (kernel_points k d * (3 / 4))%R in
    let conv := kp_formula D (nth 0 (all_dims D radii) 0%Q) rows ids crows cids F cin K in
    let offset := fun i k d => conv wo (fun v => wt v sigma) start r i (k * D + d) in
    let positions := fun i k d => if deformable then (start i k d + offset i k d)%R else start i k d in
    exists state,
    kpconv_call GPU eps search layer feats pin pout r
      (Some (pdf_run GPU search (compute_pdf_tf GPU) (DNbh n None) calls)) influence return_sorted return_padded
    = (o <- returned pout return_sorted return_padded cout (table (length cids) cout
              (conv w (fun v => wt v sigma) positions r)) ;; Ok (o, state)).
Proof.
  intros eps D rows ids B cs g ceps crows cids CB pin pout radii mx n calls r cin cout K deformable interpolation wt kernel_points
    w wo spherical layer feats F influence srt pad Hu Hr Hv Hne (eps' & B' & Hci) Ho Hcne HcB En HF El Hcin HK Hwt Hg
    search sigma start conv offset positions.
  destruct (nbh_pairs _ _ _ _ _ _ _ _ _ _ _ _ _ _ _ Hu Ho Hcne HcB Hr En) as [P _].
  unfold mk_kpconv in El. rewrite (weighting_name _ _ Hwt) in El. cbn [bind] in El. rewrite andb_false_r in El. cbn [bind] in El.
  injection El as <-.
  destruct (kp_passed D _ rows ids crows cids n P cin cout K deformable wt kernel_points w wo F r
     (pdf_run GPU search (compute_pdf_tf GPU) (DNbh n None) calls) feats pin pout eps
     influence srt pad B' eps' CB ceps (Some (pdf_run GPU search (compute_pdf_tf GPU) (DNbh n None) calls))) as (st & E & _); auto; try lia.
  - unfold search. erewrite run_ok by eauto. reflexivity.
  - exists st. exact E.
Qed.

(** C34, Conv1x1: one affine map of the features for every point. *)
Lemma C34_conv1x1_proof :
  forall p feats cin cout F w b layer return_sorted return_padded,
    mk_conv1x1 cin cout w b = Ok layer -> given feats p cin F ->
    conv1x1_call layer feats p return_sorted return_padded
    = returned p return_sorted return_padded cout (table (length (pts p)) cout (fun i o =>
        sum_over (seq 0 cin) (fun c => fval F i c * w [c; o]) + b [0%nat; o])%R).
Proof.
  intros p feats cin cout F w b layer srt pad El Hg. unfold mk_conv1x1 in El. destruct (cin =? 0) eqn:E0; [discriminate|].
  injection El as <-. unfold conv1x1_call. rewrite (given_flat _ _ _ _ Hg). cbn [bind c1_w c1_b].
  rewrite tmatmul2_ttab. cbn [bind]. rewrite (tbin_ttab _ _ _ [length (pts p); cout]) by bc. cbn [bind].
  rewrite layer_output_table. f_equal. unfold table. apply map_ext_in. intros i Hi. apply map_ext_in. intros o Ho.
  apply in_seq in Hi. apply in_seq in Ho. cbn [bc_index Nat.eqb]. rewrite (bc_self (length (pts p)) i), (bc_self cout o) by lia. reflexivity.
Qed.

(** C34: wrong arguments are rejected. *)
Lemma C34_rejected_proof :
  (forall cin cout dims mlps sizes act w b fw, 0 < mlps -> cout mod mlps <> 0 ->
     mk_mcconv cin cout dims mlps sizes act w b fw = Err ValueError) /\
  (forall dev eps search kde layer feats pin pout r nb bandwidth srt pad, fch feats <> mc_in layer ->
     mcconv_call dev eps search kde layer feats pin pout r nb bandwidth srt pad = Err InvalidArgument) /\
  (forall cin cout K dims deformable interpolation custom spherical w wo, (forall wt, ~ weighting interpolation wt) ->
     mk_kpconv cin cout K dims deformable interpolation custom spherical w wo = Err KeyError) /\
  (forall cin cout K dims deformable interpolation wt spherical w wo, weighting interpolation wt -> dims <> 3 ->
     mk_kpconv cin cout K dims deformable interpolation None spherical w wo = Err ValueError).
Proof.
  split; [|split; [|split]].
  - intros. unfold mk_mcconv. destruct (Nat.eqb_spec mlps 0); [lia|]. destruct (Nat.eqb_spec (cout mod mlps) 0); [contradiction|]. reflexivity.
  - intros. unfold mcconv_call. destruct (Nat.eqb_spec (fch feats) (mc_in layer)); [contradiction|]. reflexivity.
  - intros cin cout K dims de interp custom sph w wo H. unfold mk_kpconv, kernel_interpolation.
    destruct (String.eqb_spec interp "linear") as [->|H1]; [exfalso; eapply H; left; split; reflexivity|].
    destruct (String.eqb_spec interp "gaussian") as [->|H2]; [exfalso; eapply H; right; split; reflexivity|]. reflexivity.
  - intros cin cout K dims de interp wt sph w wo H Hd. unfold mk_kpconv. rewrite (weighting_name _ _ H). cbn [bind].
    destruct (Nat.eqb_spec dims 3); [contradiction|]. reflexivity.
Qed.

(** C34: an unknown activation function is only noticed when the layer is
    called. *)
Lemma C34_activation_partial_proof :
  forall eps D r rows ids pin crows cids pout cin cout mlps sizes act w b fw layer feats F bandwidth return_sorted return_padded,
    workable eps D r rows ids pin crows cids pout ->
    mk_mcconv cin cout D mlps sizes act w b fw = Ok layer -> (forall a, ~ activation act a) ->
    given feats pin cin F -> (0 < bandwidth)%R ->
    mcconv_call GPU eps (find_neighbors_tf GPU) (compute_pdf_tf GPU) layer feats pin pout r None bandwidth return_sorted return_padded
    = Err KeyError.
Proof.
  intros eps D r rows ids pin crows cids pout cin cout mlps sizes act w b fw l feats F bw srt pad W El Ha Hg Hb.
  destruct (layer_nbh_ok _ _ _ _ _ _ _ _ _ W) as (n & En & P & _ & Hpdf). specialize (Hpdf GPU bw Hb).
  destruct W as [(B' & Hci & _) (ceps & CB & Ho) HD _ _ _ _].
  pose proof (cloud_is _ _ _ _ _ _ _ Hci) as Hi. pose proof (cloud_is _ _ _ _ _ _ _ Ho) as Hio.
  pose proof El as El'. apply mk_mcconv_inv in El'. destruct El' as (_ & _ & Hs & _ & _ & _ & Eq).
  unfold mcconv_call. replace (mc_in l) with cin by now rewrite Eq. replace (mc_dims l) with D by now rewrite Eq.
  destruct Hg as (Hg1 & Hg2 & Hg3). rewrite Hg1, Nat.eqb_refl. cbn [negb].
  rewrite (given_flat feats pin cin F) by (split; auto). cbn [bind]. rewrite En. cbn [bind]. rewrite Hpdf. cbn [bind dn].
  rewrite (scaled_diffs_pairs D r r rows ids crows cids n pin pout P) by (first [apply Hi|apply Hio]). cbn [bind].
  rewrite Eq. unfold monte_carlo_conv, mc_basis, mc_output. cbn [mc_sizes mc_dims mc_mlps mc_act mc_layers mc_in mc_final mc_out].
  set (M := length (norig n)).
  rewrite (treshape_infer_ttab [M; D] [1] M [D] _ (fun idx => match idx with [_; m; d] => [m; d] | _ => [] end)).
  2:{ rewrite !nprod_cons, nprod_nil. lia. }
  2:{ rewrite !nprod_cons, nprod_nil. lia. }
  2:{ cbn [app]. intros idx Hi'. idx_inv. split; [in_sh|]. cbn [offset]. rewrite !nprod_cons, nprod_nil. nia. }
  cbn [bind app]. rewrite ttile0_ttab. cbn [bind]. destruct sizes as [|s sizes]; [contradiction|].
  cbn [mc_variables mc_hidden]. rewrite tmatmul3_ttab. cbn [bind].
  rewrite (tbin_ttab _ _ _ [mlps; M; s]) by bc. cbn [bind]. rewrite (activation_other _ Ha). reflexivity.
Qed.

(** C34: without an influence distance KPConv uses the convolution radius, not
    the documented [conv_radius / 2.5]. *)
Definition exK_layer : kpconv :=
  KPConv 2 1 1 2 linear_weighting (tmap (fun x => (x * (3 / 4))%R) (ttab [1; 2] (fun idx => match idx with [k; d] => (fun _ _ => 0%R) k d | _ => 0%R end)))
    None (ttab [2; 1] (fun _ => 1%R)).
Lemma C34_influence_refuted_proof :
  (forall dev eps search layer feats pin pout r nb srt pad, (0 < r)%Q ->
     kpconv_call dev eps search layer feats pin pout r nb None srt pad
     = kpconv_call dev eps search layer feats pin pout r nb (Some (Q2R r)) srt pad) /\
  exists layer feats pin pout r o o' s s',
    kpconv_call GPU (1#1000) (find_neighbors_tf GPU) layer feats pin pout r None None false false = Ok (o, s) /\
    kpconv_call GPU (1#1000) (find_neighbors_tf GPU) layer feats pin pout r None (Some (Q2R r / (5 / 2)))%R false false = Ok (o', s') /\
    o <> o'.
Proof.
  split.
  - intros dev eps search layer feats pin pout r nb srt pad Hr. unfold kpconv_call.
    replace (Q2R r / Q2R r)%R with 1%R; [reflexivity|]. apply Qreals.Qlt_Rlt in Hr. rewrite RMicromega.Q2R_0 in Hr. field. lra.
  - exists exK_layer, (Feat 2 (inr exN_F)), (seg 2 exN_rows exN_ids 2), (seg 2 exN_centers exN_cids 2), 1%Q.
    pose proof (fun influence => C34_kpconv_partial_proof (1#1000) 2 1 exN_rows exN_ids (seg 2 exN_rows exN_ids 2) exN_centers exN_cids
      (seg 2 exN_centers exN_cids 2) 2 1 1 false "linear"%string (fun v s => Rmax 0 (1 - v / s))%R (fun _ _ => 0%R) (fun _ => 1%R) (fun _ => 0%R) (fun _ => Err ValueError)
      exK_layer (Feat 2 (inr exN_F)) exN_F influence false false exN_workable eq_refl ltac:(lia) ltac:(lia)
      (or_introl (conj eq_refl eq_refl)) exN_given) as H.
    destruct (H None) as (s & E & _). destruct (H (Some (Q2R 1 / (5/2))%R)) as (s' & E' & _). clear H.
    do 2 eexists. exists s, s'. split; [exact E|]. split; [exact E'|].
    match goal with |- Feat _ (inr ?T) <> Feat _ (inr ?T') =>
      intros Eq; assert (ET : fval T 0 0 = fval T' 0 0) by congruence end.
    revert ET. clear. unfold fval, table. cbn [length exN_cids seq map nth].
    assert (En : near_points 2 1 exN_rows exN_ids exN_centers exN_cids 0 = [0]) by (vm_compute; reflexivity).
    unfold kp_formula, weighted_sum. cbn [seq]. unfold sum_over. cbn [map fold_right]. rewrite En. cbn [map fold_right fval nth exN_F].
    assert (Hn : norm 2 (fun d => delta exN_rows exN_centers 0 0 d / Q2R 1 - 0 * (3 / 4))%R = (1 / 2)%R).
    { unfold norm, sum_over. cbn [seq map fold_right].
      replace (delta exN_rows exN_centers 0 0 0) with (1/2)%R by (unfold delta; cbn; unfold Q2R; cbn; lra).
      replace (delta exN_rows exN_centers 0 0 1) with 0%R by (unfold delta; cbn; unfold Q2R; cbn; lra).
      replace (Q2R 1) with 1%R by (unfold Q2R; cbn; lra).
      replace (_ + _)%R with ((1/2) * (1/2))%R by lra. apply sqrt_square. lra. }
    rewrite Hn. replace (Q2R 1) with 1%R by (unfold Q2R; cbn; lra).
    rewrite (Rmax_right 0 (1 - 1 / 2 / 1)) by lra. rewrite (Rmax_left 0) by lra. lra.
Qed.

(** * Examples *)
(** A cloud with itself: every point has the points of its own element within
    the radius as neighbors. *)
Lemma exN_self : workable (1#1000) 2 1 exN_rows exN_ids (seg 2 exN_rows exN_ids 2) exN_rows exN_ids (seg 2 exN_rows exN_ids 2).
Proof.
  destruct exN_workable as [(B & H1 & _ & H2) _ H3 H4 H5 H6 _]. constructor; auto; [|exists (1#1000), 2; apply seg_cloud; repeat constructor|apply H6].
  exists 2. split; [apply seg_cloud; repeat constructor|]. split; [repeat constructor|].
  assert (B = 2); [|subst B; exact H2]. apply (cloud_is _ _ _ _ _ _ _) in H1. rewrite <- (ic_bsize _ _ _ _ _ _ _ H1). reflexivity.
Qed.

Example C34_mcconv_partial_ex_proof :
  exists layer,
    workable (1#1000) 2 1 exN_rows exN_ids (seg 2 exN_rows exN_ids 2) exN_rows exN_ids (seg 2 exN_rows exN_ids 2) /\
    map (near_points 2 1 exN_rows exN_ids exN_rows exN_ids) (seq 0 6) = [[0;1];[0;1];[2];[3];[4;5];[4;5]] /\
    mk_mcconv 2 4 2 2 [3;5] "ReLU" (fun k idx => INR (k + hd 0 idx)) (fun _ _ => 0%R) (fun idx => INR (hd 0 idx)) = Ok layer /\
    activation "ReLU" (fun x => Rmax 0 x) /\ given (Feat 2 (inr exN_F)) (seg 2 exN_rows exN_ids 2) 2 exN_F.
Proof.
  eexists. split; [exact exN_self|]. split; [vm_compute; reflexivity|]. split; [reflexivity|].
  split; [left; split; [apply means_lower; [repeat constructor|now left]|reflexivity]|exact exN_given].
Qed.

Example C34_mcconv_neighborhood_partial_ex_proof :
  exists g n layer,
    usable (1#1000) 2 exN_rows exN_ids 2 [1#1] g /\ radii_match 2 [1#1] [1#1] /\ valid_sizes 2 [1#1] /\
    cloud GPU (1#1000) 2 exN_rows exN_ids 2 (seg 2 exN_rows exN_ids 2) /\
    cloud GPU (1#1000) 2 exN_centers exN_cids 2 (seg 2 exN_centers exN_cids 2) /\ Forall (fun b => b < 2) exN_cids /\
    snd (mk_nbh (find_neighbors_tf GPU) g [1#1] (Some (seg 2 exN_centers exN_cids 2)) 0) = Ok n /\
    norig n = [(0,0);(1,1);(4,4)] /\
    Forall (fun c => valid_bandwidth 2 (call_bw c)) [PGet [1%R] KConstant true; PCompute [2%R; 3%R] KConstant false] /\
    mk_mcconv 2 4 2 2 [3;5] "elu" (fun k idx => INR (k + hd 0 idx)) (fun _ _ => 0%R) (fun idx => INR (hd 0 idx)) = Ok layer.
Proof.
  destruct exN_nbh as (g & n & H1 & H2 & _ & H3 & H4 & _). exists g, n. eexists. split; [exact H1|]. split; [exact H2|].
  split; [split; [reflexivity|repeat constructor]|].
  split; [apply seg_cloud; repeat constructor|]. split; [apply seg_cloud; repeat constructor|]. split; [repeat constructor|].
  split; [exact H3|]. split; [exact H4|]. split; [|reflexivity].
  repeat constructor; cbn; lra.
Qed.

Example C34_pointconv_partial_ex_proof :
  workable (1#1000) 2 1 exN_rows exN_ids (seg 2 exN_rows exN_ids 2) exN_rows exN_ids (seg 2 exN_rows exN_ids 2) /\
  2 <= length exN_ids /\ activation "leaky_ReLU" (fun x => if Rlt_dec 0 x then x else 2 / 10 * x)%R /\
  given (Feat 2 (inr exN_F)) (seg 2 exN_rows exN_ids 2) 2 exN_F /\
  exists mx : nat -> R, forall i, i < length exN_ids ->
    is_max (map (density 2 (repeat (1/5)%R 2) (repeat (1#1) 2) exN_rows exN_ids) (near_points 2 1 exN_rows exN_ids exN_rows exN_ids i)) (mx i).
Proof.
  split; [exact exN_self|]. split; [cbn; lia|]. split; [right; left; split; [apply means_lower; [repeat constructor|right; right; now left]|reflexivity]|].
  split; [exact exN_given|].
  exists (fun i => fold_right Rmax 0%R (map (density 2 (repeat (1/5)%R 2) (repeat (1#1) 2) exN_rows exN_ids) (near_points 2 1 exN_rows exN_ids exN_rows exN_ids i))).
  assert (Hm : forall l, l <> [] -> Forall (fun x => 0 <= x)%R l -> is_max l (fold_right Rmax 0%R l)).
  { intros l. induction l as [|a l IH]; [contradiction|]. intros _ HF. inversion HF as [|? ? Ha HF']; subst. cbn [fold_right].
    destruct l as [|b l].
    - cbn [fold_right]. rewrite Rmax_left by exact Ha. split; [now left|repeat constructor; lra].
    - destruct (IH ltac:(discriminate) HF') as [I1 I2]. set (z := fold_right Rmax 0%R (b :: l)) in *.
      split.
      + unfold Rmax. destruct (Rle_dec a z); [now right|now left].
      + constructor; [apply Rmax_l|]. eapply Forall_impl; [|exact I2]. cbn. intros x Hx. eapply Rle_trans; [exact Hx|apply Rmax_r]. }
  intros i Hi. apply Hm.
  - intros E. apply map_eq_nil in E. revert E. do 6 (destruct i as [|i]; [vm_compute; discriminate|]). cbn in Hi. lia.
  - apply Forall_map, Forall_forall. intros j Hj. apply Rlt_le, density_pos; [reflexivity|repeat constructor; lra|reflexivity|].
    unfold near_points in Hj. apply filter_In in Hj as [Hj _]. apply in_seq in Hj. cbn in *. lia.
Qed.

Example C34_pointconv_single_refuted_ex_proof :
  workable (1#1000) 2 1 exN_rows exN_ids (seg 2 exN_rows exN_ids 2) [[1#2;1#2]] [0] (seg 2 [[1#2;1#2]] [0] 1) /\
  near_points 2 1 exN_rows exN_ids [[1#2;1#2]] [0] 0 = [0;1].
Proof.
  split; [|vm_compute; reflexivity].
  destruct exN_self as [(B & H1 & H0 & H2) _ H3 H4 H5 H6 _]. constructor; auto; [|exists (1#1000), 1; apply seg_cloud; repeat constructor|discriminate].
  exists B. split; [exact H1|]. split; [|exact H2]. inversion H0; subst. constructor; [lia|constructor].
Qed.

Example C34_kpconv_partial_ex_proof :
  exists layer,
    workable (1#1000) 2 1 exN_rows exN_ids (seg 2 exN_rows exN_ids 2) exN_rows exN_ids (seg 2 exN_rows exN_ids 2) /\
    mk_kpconv 2 4 9 2 true "linear" (Some (ttab [9; 2] (fun idx => match idx with [k; d] => (fun k d => INR (k + d)) k d | _ => 0%R end)))
      (fun _ => Err ValueError) (fun idx => INR (hd 0 idx)) (fun idx => INR (hd 0 idx)) = Ok layer /\
    weighting "linear" (fun v s => Rmax 0 (1 - v / s))%R /\ given (Feat 2 (inr exN_F)) (seg 2 exN_rows exN_ids 2) 2 exN_F /\
    (* with one kernel point in the middle and weights 1, the features [1; 2]
       of a single neighbor at distance 1/2 give 3/2 *)
    kp_formula 2 1 exN_rows exN_ids exN_centers exN_cids exN_F 2 1 (fun _ => 1%R) (fun v => Rmax 0 (1 - v / 1))%R
      (fun _ _ _ => 0%R) 1 0 0 = (3 / 2)%R.
Proof.
  eexists. split; [exact exN_self|]. split; [reflexivity|]. split; [left; split; reflexivity|]. split; [exact exN_given|].
  assert (En : near_points 2 1 exN_rows exN_ids exN_centers exN_cids 0 = [0]) by (vm_compute; reflexivity).
  unfold kp_formula, weighted_sum. cbn [seq]. unfold sum_over. cbn [map fold_right]. rewrite En. cbn [map fold_right fval nth exN_F].
  assert (Hn : norm 2 (fun d => delta exN_rows exN_centers 0 0 d / Q2R 1 - 0)%R = (1 / 2)%R).
  { unfold norm, sum_over. cbn [seq map fold_right].
    replace (delta exN_rows exN_centers 0 0 0) with (1/2)%R by (unfold delta; cbn; unfold Q2R; cbn; lra).
    replace (delta exN_rows exN_centers 0 0 1) with 0%R by (unfold delta; cbn; unfold Q2R; cbn; lra).
    replace (Q2R 1) with 1%R by (unfold Q2R; cbn; lra).
    replace (_ + _)%R with ((1/2) * (1/2))%R by lra. apply sqrt_square. lra. }
  rewrite Hn. unfold fval. cbn [nth]. rewrite (Rmax_right 0) by lra. lra.
Qed.

Example C34_kpconv_neighborhood_partial_ex_proof :
  exists g n layer,
    usable (1#1000) 2 exN_rows exN_ids 2 [1#1] g /\ radii_match 2 [1#1] [1#1] /\ valid_sizes 2 [1#1] /\
    cloud GPU (1#1000) 2 exN_rows exN_ids 2 (seg 2 exN_rows exN_ids 2) /\
    cloud GPU (1#1000) 2 exN_centers exN_cids 2 (seg 2 exN_centers exN_cids 2) /\ Forall (fun b => b < 2) exN_cids /\
    snd (mk_nbh (find_neighbors_tf GPU) g [1#1] (Some (seg 2 exN_centers exN_cids 2)) 0) = Ok n /\
    norig n = [(0,0);(1,1);(4,4)] /\
    mk_kpconv 2 4 9 2 true "gaussian" (Some (ttab [9; 2] (fun idx => match idx with [k; d] => (fun k d => INR (k + d)) k d | _ => 0%R end)))
      (fun _ => Err ValueError) (fun idx => INR (hd 0 idx)) (fun idx => INR (hd 0 idx)) = Ok layer.
Proof.
  destruct exN_nbh as (g & n & H1 & H2 & _ & H3 & H4 & _). exists g, n. eexists. split; [exact H1|]. split; [exact H2|].
  split; [split; [reflexivity|repeat constructor]|].
  split; [apply seg_cloud; repeat constructor|]. split; [apply seg_cloud; repeat constructor|]. split; [repeat constructor|].
  split; [exact H3|]. split; [exact H4|]. reflexivity.
Qed.

Example C34_conv1x1_ex_proof :
  exists layer, mk_conv1x1 2 3 (fun idx => INR (hd 0 idx)) (fun _ => 1%R) = Ok layer /\
    given (Feat 2 (inr exN_F)) (seg 2 exN_rows exN_ids 2) 2 exN_F /\
    forall o, conv1x1_call layer (Feat 2 (inr exN_F)) (seg 2 exN_rows exN_ids 2) false false = Ok o ->
      exists T, o = Feat 3 (inr T) /\ fval T 1 2 = 5%R.
Proof.
  eexists. split; [reflexivity|]. split; [exact exN_given|].
  rewrite (C34_conv1x1_proof (seg 2 exN_rows exN_ids 2) (Feat 2 (inr exN_F)) 2 3 exN_F (fun idx => INR (hd 0 idx)) (fun _ => 1%R) _ false false eq_refl exN_given).
  intros o E. injection E as <-. eexists. split; [reflexivity|]. unfold fval, table. cbn. lra.
Qed.

Example C34_rejected_ex_proof : 5 mod 2 <> 0 /\ (forall wt, ~ weighting "cubic" wt) /\ 2 <> 3.
Proof. split; [discriminate|]. split; [|discriminate]. intros wt [[H _]|[H _]]; discriminate. Qed.

Example C34_activation_partial_ex_proof :
  (forall a, ~ activation "tanh" a) /\
  exists layer, mk_mcconv 2 4 2 2 [3;5] "tanh" (fun k idx => INR (k + hd 0 idx)) (fun _ _ => 0%R) (fun idx => INR (hd 0 idx)) = Ok layer.
Proof.
  split; [|eexists; reflexivity].
  intros a [[H _]|[[H _]|[H _]]]; apply means_lower in H; try (repeat constructor; fail); cbn in H; intuition discriminate.
Qed.
