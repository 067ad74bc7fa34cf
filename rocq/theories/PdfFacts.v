(** Facts about sums of reals and the density model. *)
From Coq Require Import List Arith ZArith QArith Reals Qreals Lia Lra Bool Permutation.
From Verif Require Import Tensor TensorFacts Spec PointCloud SpecCloud QFacts
  Grid SpecGrid GridFacts Neighbors SpecNeighbors NeighborFacts NeighborProofs
  Neighborhood NeighborhoodFacts Sampling SpecSampling SamplingFacts HierarchyFacts Pdf SpecPdf.
Import ListNotations.
Local Open Scope nat_scope.

Lemma rsum_perm l m : Permutation l m -> rsum l = rsum m.
Proof. unfold rsum. induction 1; cbn; lra. Qed.
Lemma rsum_app l m : rsum (l ++ m) = (rsum l + rsum m)%R.
Proof. unfold rsum. induction l; cbn; lra. Qed.
Lemma rsum_ones n : rsum (repeat 1%R n) = INR n.
Proof. induction n as [|n IH]; [reflexivity|]. rewrite S_INR. cbn [repeat]. unfold rsum in *. cbn. lra. Qed.
Lemma rsum_pos l : l <> [] -> Forall (fun x => (0 < x)%R) l -> (0 < rsum l)%R.
Proof.
  intros Hn H. destruct H as [|x l Hx H]; [congruence|]. clear Hn. cbn.
  assert (0 <= rsum l)%R; [|unfold rsum in *; lra]. induction H; cbn in *; unfold rsum in *; lra.
Qed.
Lemma rprod_pos l : Forall (fun x => (0 < x)%R) l -> (0 < rprod l)%R.
Proof. induction 1; cbn; [lra|]. now apply Rmult_lt_0_compat. Qed.

Lemma std_normal_gauss x : std_normal x = gauss x.
Proof. unfold std_normal, gauss. do 4 f_equal. ring. Qed.
Lemma std_normal_pos x : (0 < std_normal x)%R.
Proof.
  unfold std_normal. apply Rdiv_lt_0_compat; [apply exp_pos|]. apply sqrt_lt_R0. pose proof PI_RGT_0. lra.
Qed.
Lemma kernel_pos D bw radii p q : (0 < kernel D bw radii p q)%R.
Proof. apply rprod_pos. apply Forall_map, Forall_forall. intros; apply std_normal_pos. Qed.

Lemma rel_ok D bw radii : length bw = D -> length radii = D ->
  rel_bandwidth D bw radii = Ok (map (fun d => (nth d bw 0 * Q2R (nth d radii 0%Q))%R) (seq 0 D)).
Proof. intros <- H. unfold rel_bandwidth. now rewrite H, Nat.eqb_refl. Qed.

Lemma nth_map_seq {A} (f : nat -> A) D d x : d < D -> nth d (map f (seq 0 D)) x = f d.
Proof.
  intros H. rewrite (nth_indep _ x (f 0)) by (now rewrite map_length, seq_length).
  rewrite map_nth. now rewrite seq_nth.
Qed.

Lemma map_seq_nth {A C} (f : A -> C) l d : map f l = map (fun k => f (nth k l d)) (seq 0 (length l)).
Proof. rewrite <- (map_nth_seq l d) at 1. now rewrite map_map. Qed.

Lemma rprod_nth bw D : length bw = D -> rprod bw = product_over (seq 0 D) (fun d => nth d bw 0%R).
Proof. intros <-. unfold product_over. now rewrite map_nth_seq. Qed.

Lemma combine_maps {A B C} (f : A -> B) (g : A -> C) l : combine (map f l) (map g l) = map (fun x => (f x, g x)) l.
Proof. induction l; cbn; congruence. Qed.

Lemma segment_pairs {A} (f : nat * nat -> A) (l : list (nat * nat)) s :
  segment s (map f l) (map snd l) = map f (filter (fun q => Nat.eqb (snd q) s) l).
Proof.
  rewrite segment_fmap. f_equal. unfold segment. induction l as [|a l IH]; [reflexivity|].
  cbn. destruct (snd a =? s); cbn; now rewrite IH.
Qed.

Lemma useg_ok {A C} dev (red : list A -> C) data ids n : length data = length ids -> Forall (fun i => i < n) ids ->
  unsorted_segment dev red data ids n = Ok (map (fun s => red (segment s data ids)) (seq 0 n)).
Proof.
  intros H HF. unfold unsorted_segment. rewrite H, Nat.eqb_refl. cbn [negb].
  assert (E : forallb (fun i => i <? n) ids = true).
  { apply forallb_forall. intros i Hi. apply Nat.ltb_lt. rewrite Forall_forall in HF. auto. }
  rewrite E. destruct dev; reflexivity.
Qed.

(** The kernel sum over the pairs of one center, for any neighbor list over
    the sorted points. *)
Section Kde.
  Variables (eps : Q) (D : nat) (rows : list point) (ids : list nat) (B : nat) (cells : list Q) (n : nbh).
  Let g := ngrid n.
  Hypothesis G : is_grid GPU eps D rows ids B cells g.

  Lemma compute_pdf_tf_sum dev bw mode :
    length bw = D -> length (nradii n) = D -> Forall (fun c => (0 < c)%Q) (nradii n) -> Forall (fun x => (0 < x)%R) bw ->
    Forall (fun q => fst q < length ids /\ snd q < length ids) (nnbs n) ->
    compute_pdf_tf dev n bw mode = Ok (map (fun k =>
      (rsum (map (fun q => kernel D bw (nradii n) (nth (fst q) (gspts g) []) (nth (snd q) (gspts g) []))
                 (filter (fun q => Nat.eqb (snd q) k) (nnbs n))) / rprod bw)%R) (seq 0 (length ids))).
  Proof using G.
    intros Hbw Hr Hrp Hbp Hin. unfold compute_pdf_tf. fold g.
    rewrite (ic_dim _ _ _ _ _ _ _ (ig_cloud _ _ _ _ _ _ _ _ G)).
    rewrite rel_ok by assumption. cbn [bind]. set (rel := map (fun d => (nth d bw 0 * Q2R (nth d (nradii n) 0%Q))%R) (seq 0 D)).
    set (f := fun p : list Q => map (fun d => (Q2R (nth d p 0%Q) / nth d rel 0)%R) (seq 0 D)).
    assert (Lp : length (map f (gspts g)) = length ids).
    { rewrite map_length. apply (spts_length _ _ _ _ _ _ _ _ G). }
    assert (H1 : Forall (fun i => i < length (map f (gspts g))) (map fst (nnbs n))).
    { rewrite Lp. apply Forall_map. eapply Forall_impl; [|exact Hin]. cbv beta. tauto. }
    assert (H2 : Forall (fun i => i < length (map f (gspts g))) (map snd (nnbs n))).
    { rewrite Lp. apply Forall_map. eapply Forall_impl; [|exact Hin]. cbv beta. tauto. }
    rewrite (gather_map _ _ []) by exact H1. cbn [bind]. rewrite (gather_map _ _ []) by exact H2. cbn [bind].
    rewrite !map_map, combine_maps, map_map.
    rewrite useg_ok; [|now rewrite !map_length|exact H2]. cbn [bind]. rewrite map_map. rewrite Lp. f_equal.
    apply map_ext. intros k. f_equal. rewrite segment_pairs. f_equal. apply map_ext_in. intros q Hq.
    apply filter_In in Hq as [Hq _]. rewrite Forall_forall in Hin. destruct (Hin q Hq) as [Q1 Q2]. rewrite <- Lp in Q1, Q2.
    unfold kernel, product_over. fold (rprod). change (fold_right Rmult 1%R) with rprod. f_equal. apply map_ext_in. intros d Hd. apply in_seq in Hd.
    rewrite std_normal_gauss. f_equal. cbn [fst snd].
    rewrite map_length in Q1, Q2.
    rewrite (nth_indep (map f (gspts g)) [] (f [])) by (now rewrite map_length).
    rewrite (nth_indep (map f (gspts g)) [] (f [])) by (now rewrite map_length).
    rewrite !(map_nth f). unfold f. rewrite !nth_map_seq by lia. unfold rel. rewrite nth_map_seq by lia. field.
    assert (Hb : (0 < nth d bw 0)%R) by (rewrite Forall_forall in Hbp; apply Hbp, nth_In; lia).
    assert (Hq' : (0 < Q2R (nth d (nradii n) 0%Q))%R).
    { rewrite Forall_forall in Hrp. replace 0%R with (Q2R 0) by (unfold Q2R; cbn; lra). apply Qlt_Rlt, Hrp, nth_In. lia. }
    split; lra.
  Qed.
End Kde.

(** * The density of every sorted point *)
Lemma close_points_In D radii rows ids i j : In j (close_points D radii rows ids i) <->
  j < length ids /\ nth j ids 0 = nth i ids 0 /\ (dist2 D (nth j rows []) (nth i rows []) < nth 0 radii 0 * nth 0 radii 0)%Q.
Proof.
  unfold close_points. rewrite filter_In, in_seq, andb_true_iff, Nat.eqb_eq, negb_true_iff.
  split; intros (H1 & H2 & H3); (split; [lia|split; [exact H2|]]).
  - apply Qnot_le_lt. intros H. apply Qle_bool_iff in H. congruence.
  - apply not_true_iff_false. intros H. apply Qle_bool_iff in H. now apply (Qlt_not_le _ _ H3).
Qed.
Lemma close_points_NoDup D radii rows ids i : NoDup (close_points D radii rows ids i).
Proof. apply NoDup_filter, seq_NoDup. Qed.

Lemma kernel_sum_sorted eps D rows ids B cells g bw radii nbs k :
  is_grid GPU eps D rows ids B cells g -> NoDup nbs ->
  (forall j i, In (j, i) nbs <-> near D (nth 0 radii 0%Q) (gspts g) (gsbids g) (gspts g) (gsbids g) j i) ->
  k < length ids ->
  rsum (map (fun q => kernel D bw radii (nth (fst q) (gspts g) []) (nth (snd q) (gspts g) []))
            (filter (fun q => Nat.eqb (snd q) k) nbs))
  = sum_over (close_points D radii rows ids (nth k (gsidx g) 0))
      (fun j => kernel D bw radii (nth j rows []) (nth (nth k (gsidx g) 0) rows [])).
Proof.
  intros G Hnd Hin Hk. set (s := gsidx g) in *. set (i := nth k s 0).
  pose proof (sidx_length _ _ _ _ _ _ _ _ G) as Ls. fold s in Ls.
  pose proof (sbids_length _ _ _ _ _ _ _ _ G) as Lb.
  assert (Hlt : forall j i', In (j, i') nbs -> j < length ids /\ i' < length ids).
  { intros j i' H. apply Hin in H as (H1 & H2 & _). rewrite Lb in H1, H2. auto. }
  set (F := filter _ nbs). set (K := fun j => kernel D bw radii (nth j rows []) (nth i rows [])).
  assert (P : Permutation (map (fun q => nth (fst q) s 0) F) (close_points D radii rows ids i)).
  { apply NoDup_Permutation.
    - apply NoDup_map_inj_in; [|now apply NoDup_filter]. intros [j a] [j' a'] H H' E. cbn in E.
      apply filter_In in H as [H Ha], H' as [H' Ha']. apply Nat.eqb_eq in Ha, Ha'. cbn in Ha, Ha'. rewrite Ha, Ha'. f_equal.
      apply (NoDup_nth s 0); [apply (sidx_NoDup _ _ _ _ _ _ _ _ G)|rewrite Ls; exact (proj1 (Hlt _ _ H))|rewrite Ls; exact (proj1 (Hlt _ _ H'))|exact E].
    - apply close_points_NoDup.
    - intros j. rewrite close_points_In, in_map_iff. split.
      + intros ([a b] & <- & H). apply filter_In in H as [H Hb]. apply Nat.eqb_eq in Hb. cbn in Hb. subst b.
        destruct (Hlt _ _ H) as [Ha _]. apply Hin in H as (_ & _ & H1 & H2). cbn [fst].
        rewrite !(sbids_nth _ _ _ _ _ _ _ _ G) in H1 by assumption. rewrite !(spts_nth _ _ _ _ _ _ _ _ G) in H2 by assumption.
        split; [apply (sidx_lt _ _ _ _ _ _ _ _ G _ Ha)|]. split; [exact H1|exact H2].
      + intros (H1 & H2 & H3).
        assert (Hj : In j s) by (apply (Permutation_in _ (Permutation_sym (sidx_perm _ _ _ _ _ _ _ _ G))), in_seq; lia).
        apply (In_nth _ _ 0) in Hj as (a & Ha & Ea). rewrite Ls in Ha. exists (a, k). split; [exact Ea|].
        apply filter_In. cbn. rewrite Nat.eqb_refl. split; [|reflexivity]. apply Hin. unfold near. rewrite Lb.
        rewrite !(sbids_nth _ _ _ _ _ _ _ _ G) by assumption. rewrite !(spts_nth _ _ _ _ _ _ _ _ G) by assumption.
        fold s. fold i. rewrite Ea. auto. }
  unfold sum_over. change (fold_right Rplus 0%R) with rsum. rewrite <- (rsum_perm _ _ (Permutation_map K P)), map_map.
  f_equal. apply map_ext_in. intros [a b] H. apply filter_In in H as [H Hb]. apply Nat.eqb_eq in Hb. cbn in Hb. subst b.
  destruct (Hlt _ _ H) as [Ha _]. cbn [fst snd]. unfold K.
  rewrite !(spts_nth _ _ _ _ _ _ _ _ G) by assumption. reflexivity.
Qed.

(** The density op applied to a self-neighborhood of the grid. *)
Lemma kde_self dev eps D rows ids B cs g radii mx n bw mode :
  usable eps D rows ids B cs g -> radii_match D radii cs -> valid_sizes D radii ->
  snd (mk_nbh (find_neighbors_tf GPU) g radii None mx) = Ok n -> ids <> [] ->
  length bw = D -> Forall (fun x => (0 < x)%R) bw ->
  compute_pdf_tf dev n bw mode = Ok (map (density D bw (all_dims D radii) rows ids) (gsidx g)).
Proof.
  intros Hu Hr Hv E Hne Hbw Hbp.
  pose proof (us_sizes _ _ _ _ _ _ _ Hu) as Hvs.
  pose proof (grid_for_is _ _ _ _ _ _ _ _ Hvs (us_grid _ _ _ _ _ _ _ Hu)) as G0.
  destruct (self_nbh eps D rows ids B cs g radii mx n Hu Hr E Hne)
    as (G & Hp & T1 & T2 & T3 & _ & P1 & P2 & P3 & Hin & Hd & Hs).
  assert (Hmk : nradii n = all_dims D radii /\ NoDup (nnbs n)).
  { destruct (sorted_cloud_ok _ _ _ _ _ _ _ _ G0) as (p & Ep & Ep' & Hp'). specialize (Hp' GPU eps).
    pose proof (sbids_length _ _ _ _ _ _ _ _ G0) as Lb.
    assert (Hne' : gsbids g <> []) by (intros E'; apply Hne, length_zero_iff_nil; rewrite <- Lb, E'; reflexivity).
    pose proof (cloud_is _ _ _ _ _ _ _ Hp') as Hpi.
    destruct (mk_nbh_tf eps D rows ids B cs g eps (gspts g) (gsbids g) B p radii mx None Hu Hp' Hne'
      (ic_ids _ _ _ _ _ _ _ Hpi) Hr (or_intror (conj eq_refl Ep))) as (n' & E' & Eg & Es & _ & R & N1 & _).
    rewrite E in E'. injection E' as <-. auto. }
  destruct Hmk as [Er Hnd]. destruct Hv as [Hv1 Hv2].
  rewrite <- T1, <- T2 in Hin.
  rewrite (compute_pdf_tf_sum eps D rows ids B _ n G dev bw mode Hbw);
    [|now rewrite Er|now rewrite Er|exact Hbp|].
  - f_equal. rewrite <- T3, (map_seq_nth _ (gsidx (ngrid n)) 0), (sidx_length _ _ _ _ _ _ _ _ G).
    apply map_ext_in. intros k Hk. apply in_seq in Hk. unfold density. rewrite <- (rprod_nth bw D Hbw). f_equal.
    rewrite Er. eapply kernel_sum_sorted; eauto. lia.
  - apply Forall_forall. intros [j i] H. apply Hin in H as (H1 & H2 & _).
    rewrite (sbids_length _ _ _ _ _ _ _ _ G) in H1, H2. auto.
Qed.

(** * Positivity and invariance of the density *)
Lemma density_pos D bw radii rows ids i : length bw = D -> Forall (fun x => (0 < x)%R) bw ->
  (0 < nth 0 radii 0)%Q -> i < length ids -> (0 < density D bw radii rows ids i)%R.
Proof.
  intros Hb Hp Hr Hi. unfold density. apply Rdiv_lt_0_compat.
  - apply rsum_pos.
    + intros E. apply map_eq_nil in E.
      assert (H : In i (close_points D radii rows ids i)); [|rewrite E in H; destruct H].
      apply close_points_In. split; [exact Hi|]. split; [reflexivity|]. rewrite dist2_self. now apply Qmult_lt_0_compat.
    + apply Forall_map, Forall_forall. intros; apply kernel_pos.
  - rewrite <- rprod_nth by exact Hb. now apply rprod_pos.
Qed.

Lemma moved_dist D s t rows ids rows' ids' k k' : moved_copy D s t rows ids rows' ids' ->
  k < length ids -> k' < length ids ->
  (dist2 D (nth k rows' []) (nth k' rows' []) == dist2 D (nth (nth k s 0%nat) rows []) (nth (nth k' s 0%nat) rows []))%Q.
Proof.
  intros (_ & _ & H) Hk Hk'. unfold dist2.
  assert (E : forall l, (forall d, In d l -> d < D) ->
    (fold_right Qplus 0 (map (fun d => (nth d (nth k rows' []) 0 - nth d (nth k' rows' []) 0) * (nth d (nth k rows' []) 0 - nth d (nth k' rows' []) 0)) l)
    == fold_right Qplus 0 (map (fun d => (nth d (nth (nth k s 0%nat) rows []) 0 - nth d (nth (nth k' s 0%nat) rows []) 0) * (nth d (nth (nth k s 0%nat) rows []) 0 - nth d (nth (nth k' s 0%nat) rows []) 0)) l))%Q).
  { induction l as [|d l IH]; intros Hl; [reflexivity|]. cbn. rewrite IH by (intros; apply Hl; now right).
    specialize (Hl d (or_introl eq_refl)).
    pose proof (H k d Hk Hl) as H1. pose proof (H k' d Hk' Hl) as H2. unfold xc in H1, H2. rewrite H1, H2. ring. }
  apply E. intros d Hd. apply in_seq in Hd. lia.
Qed.

Lemma moved_kernel D s t rows ids rows' ids' bw radii k k' : moved_copy D s t rows ids rows' ids' ->
  k < length ids -> k' < length ids ->
  kernel D bw radii (nth k rows' []) (nth k' rows' []) =
  kernel D bw radii (nth (nth k s 0) rows []) (nth (nth k' s 0) rows []).
Proof.
  intros (_ & _ & H) Hk Hk'. unfold kernel, product_over. f_equal. apply map_ext_in. intros d Hd. apply in_seq in Hd.
  do 2 f_equal.
  assert (Hd' : d < D) by lia.
  pose proof (Qeq_eqR _ _ (H k d Hk Hd')) as H1. pose proof (Qeq_eqR _ _ (H k' d Hk' Hd')) as H2. unfold xc in H1, H2.
  rewrite H1, H2, !Q2R_plus. ring.
Qed.

Lemma density_moved D s t rows ids rows' ids' bw radii k : moved_copy D s t rows ids rows' ids' ->
  k < length ids ->
  density D bw radii rows' ids' k = density D bw radii rows ids (nth k s 0).
Proof.
  intros M Hk. pose proof M as (P & Ei & H).
  assert (Ls : length s = length ids) by (rewrite (Permutation_length P); apply seq_length).
  assert (Li : length ids' = length ids) by (rewrite Ei, map_length; exact Ls).
  assert (Hid : forall j, j < length ids -> nth j ids' 0 = nth (nth j s 0) ids 0).
  { intros j Hj. rewrite Ei, (nth_indep _ 0 (nth 0 ids 0)) by (rewrite map_length; lia). apply (map_nth (fun i => nth i ids 0)). }
  assert (Hs : NoDup s) by (apply (Permutation_NoDup (Permutation_sym P)), seq_NoDup).
  unfold density. f_equal. unfold sum_over. change (fold_right Rplus 0%R) with rsum.
  assert (PP : Permutation (map (fun j => nth j s 0) (close_points D radii rows' ids' k)) (close_points D radii rows ids (nth k s 0))).
  { apply NoDup_Permutation.
    - apply NoDup_map_inj_in; [|apply close_points_NoDup]. intros a b Ha Hb E.
      apply close_points_In in Ha as (Ha & _), Hb as (Hb & _). apply (NoDup_nth s 0); [exact Hs|lia..|exact E].
    - apply close_points_NoDup.
    - intros j. rewrite close_points_In, in_map_iff. split.
      + intros (a & <- & Ha). apply close_points_In in Ha as (Ha & H1 & H2). rewrite Li in Ha.
        rewrite !Hid in H1 by lia. rewrite (moved_dist _ _ _ _ _ _ _ a k M) in H2 by lia.
        split; [|now split]. assert (Hin : In (nth a s 0) s) by (apply nth_In; lia).
        apply (Permutation_in _ P), in_seq in Hin. lia.
      + intros (Hj & H1 & H2). assert (Hin : In j s) by (apply (Permutation_in _ (Permutation_sym P)), in_seq; lia).
        apply (In_nth _ _ 0) in Hin as (a & Ha & <-). exists a. split; [reflexivity|]. apply close_points_In.
        rewrite !Hid by lia. rewrite (moved_dist _ _ _ _ _ _ _ a k M) by lia. split; [lia|]. now split. }
  rewrite <- (rsum_perm _ _ (Permutation_map _ PP)), map_map. f_equal. apply map_ext_in. intros j Hj.
  apply close_points_In in Hj as (Hj & _). apply (moved_kernel _ _ t _ _ _ _ _ _ _ _ M); lia.
Qed.
