(** Facts about scaled and rotated clouds: the neighbors correspond to each
    other and the formulas of the layers have the same values. *)
From Coq Require Import String List Arith ZArith QArith Reals Qreals Lia Lra Bool Permutation.
From Verif Require Import Tensor TensorFacts Spec SpecText PointCloud SpecCloud PointCloudFacts QFacts Grid SpecGrid
  Neighbors SpecNeighbors Sampling SpecSampling Hierarchy SpecHierarchy Pdf SpecPdf PdfFacts
  RTensor RTensorFacts Kernels Layers SpecLayers LayerFacts LayerLink LayerProofs ConvProofs MoveProofs
  Blocks SpecBlocks BlockFacts BatchProofs Classifier SpecClassifier SpecMatch MatchFacts SpecScale.
Import ListNotations.
Local Open Scope nat_scope.

Lemma dist_scale D s t (p q p2 q2 : list Q) :
  (forall d, d < D -> (nth d p2 0 == s * nth d p 0 + t d)%Q) -> (forall d, d < D -> (nth d q2 0 == s * nth d q 0 + t d)%Q) ->
  (dist2 D p2 q2 == s * s * dist2 D p q)%Q.
Proof.
  intros H H'. unfold dist2.
  assert (E : forall l, (forall d, In d l -> d < D) ->
    (fold_right Qplus 0 (map (fun d => (nth d p2 0 - nth d q2 0) * (nth d p2 0 - nth d q2 0)) l)
    == s * s * fold_right Qplus 0 (map (fun d => (nth d p 0 - nth d q 0) * (nth d p 0 - nth d q 0)) l))%Q).
  { induction l as [|d l IH]; intros Hl; [cbn; ring|]. cbn [map fold_right]. rewrite IH by (intros; apply Hl; now right).
    specialize (Hl d (or_introl eq_refl)). rewrite (H d Hl), (H' d Hl). ring. }
  apply E. intros d Hd. apply in_seq in Hd. lia.
Qed.
Lemma Qle_bool_scale s r d d2 : (0 < s)%Q -> (d2 == s * s * d)%Q -> Qle_bool ((s * r) * (s * r)) d2 = Qle_bool (r * r) d.
Proof.
  intros Hs E. apply eq_true_iff_eq. rewrite !Qle_bool_iff, E.
  setoid_replace (s * r * (s * r))%Q with (s * s * (r * r))%Q by ring. apply Qmult_le_l.
  setoid_replace 0%Q with (s * 0)%Q by ring. now apply Qmult_lt_l.
Qed.
Lemma scaled_similar D s t e b c e2 b2 c2 ps qs : scaled D s t e b e2 b2 ps -> scaled D s t e c e2 c2 qs ->
  similar D s e b c e2 b2 c2 ps qs.
Proof.
  intros (P & H) (P' & H'). split; [exact P|]. split; [exact P'|]. intros i j k l Hi Hk.
  apply (dist_scale D s t); intros d Hd; [exact (H i j d Hi Hd)|exact (H' k l d Hk Hd)].
Qed.

Section Similar.
  Context (D : nat) (s : Q) (e e2 : nat) (up lo up2 lo2 : batch) (ps qs : list (nat * nat)).
  Context (Hs : (0 < s)%Q) (HS : similar D s e up lo e2 up2 lo2 ps qs).

  Lemma sm_lt i i2 : In (i, i2) qs -> (i < length (snd lo) /\ nth i (snd lo) 0 = e) /\ (i2 < length (snd lo2) /\ nth i2 (snd lo2) 0 = e2).
  Proof using HS.
    destruct HS as (_ & (P & P2) & _). intros Hi. rewrite <- !members_iff. split.
    - apply (Permutation_in _ P), in_map_iff. now exists (i, i2).
    - apply (Permutation_in _ P2), in_map_iff. now exists (i, i2).
  Qed.
  Lemma sm_near r i i2 : In (i, i2) qs -> exists rs, incl rs ps /\
    Permutation (map fst rs) (near_points D r (fst up) (snd up) (fst lo) (snd lo) i) /\
    Permutation (map snd rs) (near_points D (s * r) (fst up2) (snd up2) (fst lo2) (snd lo2) i2).
  Proof using Hs HS.
    intros Hi. destruct (sm_lt i i2 Hi) as ((_ & E) & (_ & E2)). rewrite (near_filter _ _ _ _ _ _ i e E), (near_filter _ _ _ _ _ _ i2 e2 E2).
    destruct HS as ((P & P2) & _ & Hd).
    set (f := fun j => negb (Qle_bool (r * r) (dist2 D (nth j (fst up) []) (nth i (fst lo) [])))).
    set (f2 := fun j => negb (Qle_bool (s * r * (s * r)) (dist2 D (nth j (fst up2) []) (nth i2 (fst lo2) [])))).
    exists (filter (fun p => f (fst p)) ps). split; [intros p Hp; apply filter_In in Hp; tauto|]. split.
    - rewrite <- filter_map_swap. now apply perm_filter.
    - rewrite (filter_ext_in _ (fun p => f2 (snd p))).
      + rewrite <- (filter_map_swap snd f2). now apply perm_filter.
      + intros [j j2] Hj. unfold f, f2. cbn [fst snd]. f_equal. symmetry. apply Qle_bool_scale; [exact Hs|]. exact (Hd j j2 i i2 Hj Hi).
  Qed.
  Lemma sm_values {A} r (G G2 : nat -> A) i i2 : In (i, i2) qs -> (forall j j2, In (j, j2) ps -> G j = G2 j2) ->
    Permutation (map G (near_points D r (fst up) (snd up) (fst lo) (snd lo) i)) (map G2 (near_points D (s * r) (fst up2) (snd up2) (fst lo2) (snd lo2) i2)).
  Proof using Hs HS.
    intros Hi HG. destruct (sm_near r i i2 Hi) as (rs & Hr & P & P2).
    rewrite <- (Permutation_map G P), <- (Permutation_map G2 P2), !map_map.
    erewrite map_ext_in; [reflexivity|]. intros [j j2] Hj. apply HG, Hr, Hj.
  Qed.
  Lemma sm_sum r (G G2 : nat -> R) i i2 : In (i, i2) qs -> (forall j j2, In (j, j2) ps -> G j = G2 j2) ->
    sum_over (near_points D r (fst up) (snd up) (fst lo) (snd lo) i) G = sum_over (near_points D (s * r) (fst up2) (snd up2) (fst lo2) (snd lo2) i2) G2.
  Proof using Hs HS. intros Hi HG. unfold sum_over. change (fold_right Rplus 0%R) with rsum. now apply rsum_perm, sm_values. Qed.
  Lemma sm_table C f g : (forall i i2 c, In (i, i2) qs -> c < C -> f i c = g i2 c) ->
    rows_match qs (table (length (snd lo)) C f) (table (length (snd lo2)) C g).
  Proof using HS.
    intros H i i2 Hi. destruct (sm_lt i i2 Hi) as ((H1 & _) & (H2 & _)). unfold table. rewrite !nth_map_seq by assumption.
    apply map_ext_in. intros c Hc. apply in_seq in Hc. apply H; [exact Hi|lia].
  Qed.
End Similar.

(** Isotropic kernels depend on distances only. *)
Lemma kernel_dist D (b : R) (r : Q) p q : (Q2R r <> 0)%R -> (b <> 0)%R ->
  SpecPdf.kernel D (repeat b D) (repeat r D) p q = ((/ sqrt (2 * PI)) ^ D * exp (- (Q2R (dist2 D p q) / (b * Q2R r * (b * Q2R r))) / 2))%R.
Proof.
  intros Hr Hb. unfold SpecPdf.kernel, product_over, dist2.
  assert (E : forall l, (forall d, In d l -> d < D) ->
    fold_right Rmult 1%R (map (fun d => std_normal ((Q2R (nth d p 0%Q) - Q2R (nth d q 0%Q)) / (nth d (repeat b D) 0 * Q2R (nth d (repeat r D) 0%Q)))%R) l)
    = ((/ sqrt (2 * PI)) ^ length l * exp (- (Q2R (fold_right Qplus 0%Q (map (fun d => (nth d p 0 - nth d q 0) * (nth d p 0 - nth d q 0))%Q l)) / (b * Q2R r * (b * Q2R r))) / 2))%R).
  { induction l as [|d l IH]; intros Hl.
    - cbn [map fold_right length pow]. replace (Q2R 0) with 0%R by (unfold Q2R; cbn; lra).
      replace (- (0 / (b * Q2R r * (b * Q2R r))) / 2)%R with 0%R by (unfold Rdiv; ring). rewrite exp_0. ring.
    - cbn [map fold_right length pow]. rewrite IH by (intros; apply Hl; now right). specialize (Hl d (or_introl eq_refl)).
      rewrite !nth_repeat_lt by exact Hl. unfold std_normal.
      rewrite Q2R_plus, Q2R_mult, Q2R_minus.
      set (x := (Q2R (nth d p 0%Q) - Q2R (nth d q 0%Q))%R). set (y := Q2R (fold_right Qplus 0%Q _)).
      replace (- ((x * x + y) / (b * Q2R r * (b * Q2R r))) / 2)%R
        with (- (x / (b * Q2R r) * (x / (b * Q2R r))) / 2 + - (y / (b * Q2R r * (b * Q2R r))) / 2)%R by (field; auto).
      rewrite exp_plus. unfold Rdiv. ring. }
  rewrite E by (intros d Hd; apply in_seq in Hd; lia). now rewrite seq_length.
Qed.
Lemma kernel_scale D (b : R) (s r : Q) p q p2 q2 : (0 < s)%Q -> (0 < r)%Q -> (0 < b)%R ->
  (dist2 D p2 q2 == s * s * dist2 D p q)%Q ->
  SpecPdf.kernel D (repeat b D) (repeat (s * r)%Q D) p2 q2 = SpecPdf.kernel D (repeat b D) (repeat r D) p q.
Proof.
  intros Hs Hr Hb E. apply Qlt_Rlt in Hs, Hr. replace (Q2R 0) with 0%R in Hs, Hr by (unfold Q2R; cbn; lra).
  assert (N1 : (Q2R r <> 0)%R) by lra. assert (N2 : (b <> 0)%R) by lra. assert (N3 : (Q2R s <> 0)%R) by lra.
  assert (N4 : (Q2R (s * r) <> 0)%R) by (rewrite Q2R_mult; now apply Rmult_integral_contrapositive).
  rewrite !kernel_dist by assumption.
  apply (f_equal (fun x => (/ sqrt (2 * PI)) ^ D * exp (- x / 2))%R). rewrite (Qeq_eqR _ _ E), !Q2R_mult. field. repeat split; lra.
Qed.
Lemma density_scale D (b : R) (s r : Q) e e2 up up2 ps j j2 : (0 < s)%Q -> (0 < r)%Q -> (0 < b)%R -> 0 < D ->
  similar D s e up up e2 up2 up2 ps ps -> In (j, j2) ps ->
  density D (repeat b D) (repeat r D) (fst up) (snd up) j = density D (repeat b D) (repeat (s * r)%Q D) (fst up2) (snd up2) j2.
Proof.
  intros Hs Hr Hb HD HU Hj. unfold density. f_equal.
  assert (C : forall (x : Q) rw iw i, close_points D (repeat x D) rw iw i = near_points D x rw iw rw iw i).
  { intros x rw iw i. unfold close_points, near_points. now rewrite nth_repeat_lt by exact HD. }
  rewrite !C. apply (sm_sum D s e e2 up up up2 up2 ps ps Hs HU); [exact Hj|]. intros q q2 Hq. symmetry.
  apply kernel_scale; auto. destruct HU as (_ & _ & Hd). exact (Hd q q2 j j2 Hq Hj).
Qed.

Section Scaled.
  Context (D : nat) (s r : Q) (t : nat -> Q) (e e2 : nat) (up lo up2 lo2 : batch) (ps qs : list (nat * nat)) (F F2 : list (list R)).
  Context (Hs : (0 < s)%Q) (Hr : (0 < r)%Q) (HU : scaled D s t e up e2 up2 ps) (HL : scaled D s t e lo e2 lo2 qs) (HF : rows_match ps F F2).
  Let HS : similar D s e up lo e2 up2 lo2 ps qs := scaled_similar D s t e up lo e2 up2 lo2 ps qs HU HL.

  Lemma sc_delta j j2 i i2 d : In (j, j2) ps -> In (i, i2) qs -> d < D ->
    (delta (fst up2) (fst lo2) j2 i2 d / Q2R (s * r) = delta (fst up) (fst lo) j i d / Q2R r)%R.
  Proof using HU HL Hs Hr.
    pose proof (proj2 HU) as Hx. pose proof (proj2 HL) as Hy. intros Hj Hi Hd. unfold delta.
    pose proof (Qeq_eqR _ _ (Hx j j2 d Hj Hd)) as H1. pose proof (Qeq_eqR _ _ (Hy i i2 d Hi Hd)) as H2.
    rewrite H1, H2, !Q2R_plus, !Q2R_mult. pose proof Hs as Hs'. pose proof Hr as Hr'. apply Qlt_Rlt in Hs', Hr'.
    replace (Q2R 0) with 0%R in Hs', Hr' by (unfold Q2R; cbn; lra). field. split; lra.
  Qed.
  Lemma sc_fval j j2 c : In (j, j2) ps -> fval F j c = fval F2 j2 c.
  Proof using HF. intros Hj. unfold fval. now rewrite (HF j j2 Hj). Qed.
  Lemma sc_mc cin cout mlps sizes a w bb fw dens dens2 i i2 o : sizes <> [] -> In (i, i2) qs ->
    (forall j j2, In (j, j2) ps -> dens j i = dens2 j2 i2) ->
    mc_formula D r (fst up) (snd up) (fst lo) (snd lo) F cin cout mlps sizes a w bb fw r dens i o
    = mc_formula D (s * r) (fst up2) (snd up2) (fst lo2) (snd lo2) F2 cin cout mlps sizes a w bb fw (s * r) dens2 i2 o.
  Proof using HU HL HF Hs Hr.
    intros Hz Hi Hd. unfold mc_formula, weighted_sum. apply sum_over_ext. intros c _. apply sum_over_ext. intros h Hh. apply in_seq in Hh.
    f_equal. apply (sm_sum D s e e2 up lo up2 lo2 ps qs Hs HS); [exact Hi|]. intros j j2 Hj. rewrite (sc_fval j j2), (Hd j j2) by auto. do 2 f_equal.
    apply mlp_ext; [intros d Hd'; now rewrite (sc_delta j j2 i i2)|]. destruct sizes; [contradiction|]. rewrite !last_cons_nat in *. lia.
  Qed.
  Lemma sc_kp cin K w wt kpt kpt2 i i2 o : In (i, i2) qs ->
    (forall k d, k < K -> d < D -> kpt i k d = kpt2 i2 k d) ->
    kp_formula D r (fst up) (snd up) (fst lo) (snd lo) F cin K w wt kpt r i o
    = kp_formula D (s * r) (fst up2) (snd up2) (fst lo2) (snd lo2) F2 cin K w wt kpt2 (s * r) i2 o.
  Proof using HU HL HF Hs Hr.
    intros Hi Hk. unfold kp_formula, weighted_sum. apply sum_over_ext. intros c _. apply sum_over_ext. intros k Hk'.
    apply in_seq in Hk'. f_equal. apply (sm_sum D s e e2 up lo up2 lo2 ps qs Hs HS); [exact Hi|]. intros j j2 Hj. rewrite (sc_fval j j2) by auto. do 2 f_equal.
    apply norm_ext. intros d Hd. rewrite (sc_delta j j2 i i2), Hk by (auto; lia). reflexivity.
  Qed.
End Scaled.
