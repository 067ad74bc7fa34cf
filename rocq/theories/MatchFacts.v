(** Facts about clouds that are equal up to the order of the points, a
    translation and the other elements of their batches: the formulas of the
    convolutions have the same values on them. *)
From Coq Require Import String List Arith ZArith QArith Reals Qreals Lia Lra Bool Permutation.
From Verif Require Import Tensor TensorFacts Spec SpecText PointCloud SpecCloud PointCloudFacts QFacts Grid SpecGrid
  Neighbors SpecNeighbors Sampling SpecSampling Hierarchy SpecHierarchy Pdf SpecPdf PdfFacts
  RTensor RTensorFacts Kernels Layers SpecLayers LayerFacts LayerLink LayerProofs ConvProofs MoveProofs
  Blocks SpecBlocks BlockFacts BatchProofs Classifier SpecClassifier SpecMatch.
Import ListNotations.
Local Open Scope nat_scope.

Lemma perm_filter {A} (f : A -> bool) l l' : Permutation l l' -> Permutation (filter f l) (filter f l').
Proof.
  induction 1 as [|x l l2 H IH|x y l|l l2 l3 H1 I1 H2 I2]; cbn [filter].
  - constructor.
  - destruct (f x); auto.
  - destruct (f y), (f x); auto. constructor.
  - eauto using Permutation_trans.
Qed.
Lemma rmax_perm x l l' : Permutation l l' -> fold_right Rmax x l = fold_right Rmax x l'.
Proof.
  induction 1; cbn [fold_right]; auto.
  - now rewrite IHPermutation.
  - rewrite !Rmax_assoc. f_equal. apply Rmax_comm.
  - congruence.
Qed.
Lemma members_iff ids b i : In i (members ids b) <-> i < length ids /\ nth i ids 0 = b.
Proof.
  unfold members. rewrite filter_In, in_seq, Nat.eqb_eq. lia.
Qed.
Lemma members_nodup ids b : NoDup (members ids b).
Proof. unfold members. apply TensorFacts.NoDup_filter, seq_NoDup. Qed.
Lemma near_filter D r (rw : list point) iw cw ciw i b : nth i ciw 0 = b ->
  near_points D r rw iw cw ciw i = filter (fun j => negb (Qle_bool (r * r) (dist2 D (nth j rw []) (nth i cw [])))) (members iw b).
Proof.
  intros <-. unfold near_points, members. generalize (seq 0 (length iw)) as l.
  induction l as [|j l IH]; [reflexivity|]. cbn [filter]. destruct (nth j iw 0 =? nth i ciw 0); cbn [andb filter]; [|exact IH].
  destruct (negb _); [f_equal|]; exact IH.
Qed.
Lemma dist_shift D t (p q p2 q2 : list Q) :
  (forall d, d < D -> (nth d p2 0 == nth d p 0 + t d)%Q) -> (forall d, d < D -> (nth d q2 0 == nth d q 0 + t d)%Q) ->
  (dist2 D p2 q2 == dist2 D p q)%Q.
Proof.
  intros H H'. unfold dist2.
  assert (E : forall l, (forall d, In d l -> d < D) ->
    (fold_right Qplus 0 (map (fun d => (nth d p2 0 - nth d q2 0) * (nth d p2 0 - nth d q2 0)) l)
    == fold_right Qplus 0 (map (fun d => (nth d p 0 - nth d q 0) * (nth d p 0 - nth d q 0)) l))%Q).
  { induction l as [|d l IH]; intros Hl; [reflexivity|]. cbn [map fold_right]. rewrite IH by (intros; apply Hl; now right).
    specialize (Hl d (or_introl eq_refl)). rewrite (H d Hl), (H' d Hl). ring. }
  apply E. intros d Hd. apply in_seq in Hd. lia.
Qed.
Lemma kernel_shift D t bw radii (p q p2 q2 : list Q) :
  (forall d, d < D -> (nth d p2 0 == nth d p 0 + t d)%Q) -> (forall d, d < D -> (nth d q2 0 == nth d q 0 + t d)%Q) ->
  SpecPdf.kernel D bw radii p2 q2 = SpecPdf.kernel D bw radii p q.
Proof.
  intros H H'. unfold SpecPdf.kernel, product_over. f_equal. apply map_ext_in. intros d Hd. apply in_seq in Hd.
  pose proof (Qeq_eqR _ _ (H d ltac:(lia))) as H1. pose proof (Qeq_eqR _ _ (H' d ltac:(lia))) as H2.
  rewrite H1, H2, !Q2R_plus. do 2 f_equal. ring.
Qed.

Section Pair.
  Context (D : nat) (t : nat -> Q) (e e2 : nat) (up lo up2 lo2 : batch) (ps qs : list (nat * nat)).
  Context (HU : matched D t e up e2 up2 ps) (HL : matched D t e lo e2 lo2 qs).

  Lemma mt_lt i i2 : In (i, i2) qs -> (i < length (snd lo) /\ nth i (snd lo) 0 = e) /\ (i2 < length (snd lo2) /\ nth i2 (snd lo2) 0 = e2).
  Proof using HL.
    destruct HL as (P & P2 & _). intros Hi. rewrite <- !members_iff. split.
    - apply (Permutation_in _ P), in_map_iff. now exists (i, i2).
    - apply (Permutation_in _ P2), in_map_iff. now exists (i, i2).
  Qed.
  Lemma mt_near r i i2 : In (i, i2) qs -> exists rs, incl rs ps /\
    Permutation (map fst rs) (near_points D r (fst up) (snd up) (fst lo) (snd lo) i) /\
    Permutation (map snd rs) (near_points D r (fst up2) (snd up2) (fst lo2) (snd lo2) i2).
  Proof using HU HL.
    intros Hi. destruct (mt_lt i i2 Hi) as ((_ & E) & (_ & E2)). rewrite (near_filter _ _ _ _ _ _ i e E), (near_filter _ _ _ _ _ _ i2 e2 E2).
    destruct HU as (P & P2 & Hx). destruct HL as (_ & _ & Hy).
    set (f := fun j => negb (Qle_bool (r * r) (dist2 D (nth j (fst up) []) (nth i (fst lo) [])))).
    set (f2 := fun j => negb (Qle_bool (r * r) (dist2 D (nth j (fst up2) []) (nth i2 (fst lo2) [])))).
    exists (filter (fun p => f (fst p)) ps). split; [intros p Hp; apply filter_In in Hp; tauto|]. split.
    - rewrite <- filter_map_swap. now apply perm_filter.
    - rewrite (filter_ext_in _ (fun p => f2 (snd p))).
      + rewrite <- (filter_map_swap snd f2). now apply perm_filter.
      + intros [j j2] Hj. unfold f, f2. cbn [fst snd].
        rewrite (dist_shift D t (nth j (fst up) []) (nth i (fst lo) []) (nth j2 (fst up2) []) (nth i2 (fst lo2) [])); [reflexivity| |].
        * intros d Hd. exact (Hx j j2 d Hj Hd).
        * intros d Hd. exact (Hy i i2 d Hi Hd).
  Qed.
  Lemma mt_values {A} r (G G2 : nat -> A) i i2 : In (i, i2) qs -> (forall j j2, In (j, j2) ps -> G j = G2 j2) ->
    Permutation (map G (near_points D r (fst up) (snd up) (fst lo) (snd lo) i)) (map G2 (near_points D r (fst up2) (snd up2) (fst lo2) (snd lo2) i2)).
  Proof using HU HL.
    intros Hi HG. destruct (mt_near r i i2 Hi) as (rs & Hr & P & P2).
    rewrite <- (Permutation_map G P), <- (Permutation_map G2 P2), !map_map.
    erewrite map_ext_in; [reflexivity|]. intros [j j2] Hj. apply HG, Hr, Hj.
  Qed.
  Lemma mt_sum r (G G2 : nat -> R) i i2 : In (i, i2) qs -> (forall j j2, In (j, j2) ps -> G j = G2 j2) ->
    sum_over (near_points D r (fst up) (snd up) (fst lo) (snd lo) i) G = sum_over (near_points D r (fst up2) (snd up2) (fst lo2) (snd lo2) i2) G2.
  Proof using HU HL. intros Hi HG. unfold sum_over. change (fold_right Rplus 0%R) with rsum. now apply rsum_perm, mt_values. Qed.
  Lemma mt_delta j j2 i i2 d : In (j, j2) ps -> In (i, i2) qs -> d < D ->
    delta (fst up) (fst lo) j i d = delta (fst up2) (fst lo2) j2 i2 d.
  Proof using HU HL.
    destruct HU as (_ & _ & Hx). destruct HL as (_ & _ & Hy). intros Hj Hi Hd. unfold delta.
    pose proof (Qeq_eqR _ _ (Hx j j2 d Hj Hd)) as H1. pose proof (Qeq_eqR _ _ (Hy i i2 d Hi Hd)) as H2.
    rewrite H1, H2, !Q2R_plus. ring.
  Qed.

  Context (F F2 : list (list R)) (HF : rows_match ps F F2).
  Lemma mt_fval j j2 c : In (j, j2) ps -> fval F j c = fval F2 j2 c.
  Proof using HF. intros Hj. unfold fval. now rewrite (HF j j2 Hj). Qed.

  Lemma mt_mc r cin cout mlps sizes a w bb fw rr dens dens2 i i2 o : sizes <> [] -> In (i, i2) qs ->
    (forall j j2, In (j, j2) ps -> dens j i = dens2 j2 i2) ->
    mc_formula D r (fst up) (snd up) (fst lo) (snd lo) F cin cout mlps sizes a w bb fw rr dens i o
    = mc_formula D r (fst up2) (snd up2) (fst lo2) (snd lo2) F2 cin cout mlps sizes a w bb fw rr dens2 i2 o.
  Proof using HU HL HF.
    intros Hs Hi Hd. unfold mc_formula, weighted_sum. apply sum_over_ext. intros c _. apply sum_over_ext. intros h Hh. apply in_seq in Hh.
    f_equal. apply mt_sum; [exact Hi|]. intros j j2 Hj. rewrite (mt_fval j j2), (Hd j j2) by auto. do 2 f_equal.
    apply mlp_ext; [intros d Hd'; now rewrite (mt_delta j j2 i i2)|]. destruct sizes; [contradiction|]. rewrite !last_cons_nat in *. lia.
  Qed.
  Lemma mt_kp r cin K w wt kpt kpt2 rr i i2 o : In (i, i2) qs ->
    (forall k d, k < K -> d < D -> kpt i k d = kpt2 i2 k d) ->
    kp_formula D r (fst up) (snd up) (fst lo) (snd lo) F cin K w wt kpt rr i o
    = kp_formula D r (fst up2) (snd up2) (fst lo2) (snd lo2) F2 cin K w wt kpt2 rr i2 o.
  Proof using HU HL HF.
    intros Hi Hk. unfold kp_formula, weighted_sum. apply sum_over_ext. intros c _. apply sum_over_ext. intros k Hk'.
    apply in_seq in Hk'. f_equal. apply mt_sum; [exact Hi|]. intros j j2 Hj. rewrite (mt_fval j j2) by auto. do 2 f_equal.
    apply norm_ext. intros d Hd. rewrite (mt_delta j j2 i i2), Hk by (auto; lia). reflexivity.
  Qed.
  Lemma mt_pt r cin H a axis bias w w1 b1 w2 bb2 dens dens2 mx mx2 i i2 o : In (i, i2) qs ->
    (forall j j2, In (j, j2) ps -> dens j i = dens2 j2 i2) -> mx i = mx2 i2 ->
    pt_formula D r (fst up) (snd up) (fst lo) (snd lo) F cin H a axis bias w w1 b1 w2 bb2 dens mx i o
    = pt_formula D r (fst up2) (snd up2) (fst lo2) (snd lo2) F2 cin H a axis bias w w1 b1 w2 bb2 dens2 mx2 i2 o.
  Proof using HU HL HF.
    intros Hi Hd Hm. unfold pt_formula, weighted_sum. apply sum_over_ext. intros c _. apply sum_over_ext. intros h _.
    f_equal. apply mt_sum; [exact Hi|]. intros j j2 Hj. rewrite (mt_fval j j2), (Hd j j2), Hm by auto. do 4 f_equal.
    apply sum_over_ext. intros d Hd'. apply in_seq in Hd'. now rewrite (mt_delta j j2 i i2) by (auto; lia).
  Qed.
  Lemma mt_table C f g : (forall i i2 c, In (i, i2) qs -> c < C -> f i c = g i2 c) ->
    rows_match qs (table (length (snd lo)) C f) (table (length (snd lo2)) C g).
  Proof using HL.
    intros H i i2 Hi. destruct (mt_lt i i2 Hi) as ((H1 & _) & (H2 & _)). unfold table. rewrite !nth_map_seq by assumption.
    apply map_ext_in. intros c Hc. apply in_seq in Hc. apply H; [exact Hi|lia].
  Qed.
End Pair.

Lemma mt_density D t e e2 up up2 ps bw radii j j2 : matched D t e up e2 up2 ps -> In (j, j2) ps ->
  density D bw radii (fst up) (snd up) j = density D bw radii (fst up2) (snd up2) j2.
Proof.
  intros HU Hj. unfold density. f_equal.
  change (close_points D radii (fst up) (snd up) j) with (near_points D (nth 0 radii 0%Q) (fst up) (snd up) (fst up) (snd up) j).
  change (close_points D radii (fst up2) (snd up2) j2) with (near_points D (nth 0 radii 0%Q) (fst up2) (snd up2) (fst up2) (snd up2) j2).
  apply (mt_sum D t e e2 up up up2 up2 ps ps HU HU); [exact Hj|]. intros q q2 Hq. destruct HU as (_ & _ & Hx). symmetry.
  apply (kernel_shift D t); intros d Hd; [exact (Hx q q2 d Hq Hd)|exact (Hx j j2 d Hj Hd)].
Qed.

(** The convolutions of the networks. *)
Lemma script_match ty mlps hidden v cin cout r t e e2 up lo up2 lo2 ps qs F F2 :
  matched 3 t e up e2 up2 ps -> matched 3 t e lo e2 lo2 qs -> rows_match ps F F2 ->
  rows_match qs (script_formula ty mlps hidden v cin cout r up lo F) (script_formula ty mlps hidden v cin cout r up2 lo2 F2).
Proof.
  intros HU HL HF. unfold script_formula. apply (mt_table 3 t e e2 lo lo2 qs HL). intros i i2 c Hi Hc.
  assert (Hd : forall j j2, In (j, j2) ps -> density 3 (repeat (2 / 10)%R 3) (repeat r 3) (fst up) (snd up) j
    = density 3 (repeat (2 / 10)%R 3) (repeat r 3) (fst up2) (snd up2) j2) by (intros; now apply (mt_density 3 t e e2 up up2 ps)).
  destruct ty.
  - apply (mt_mc 3 t e e2 up lo up2 lo2 ps qs); auto. discriminate.
  - apply (mt_kp 3 t e e2 up lo up2 lo2 ps qs); auto.
  - apply (mt_pt 3 t e e2 up lo up2 lo2 ps qs); auto. apply rmax_perm. now apply (mt_values 3 t e e2 up lo up2 lo2 ps qs).
Qed.
Lemma pooled_match t e e2 up lo up2 lo2 ps qs r C X X2 :
  matched 3 t e up e2 up2 ps -> matched 3 t e lo e2 lo2 qs -> rows_match ps X X2 ->
  rows_match qs (pooled r up lo C X) (pooled r up2 lo2 C X2).
Proof.
  intros HU HL HF. unfold pooled. apply (mt_table 3 t e e2 lo lo2 qs HL). intros i i2 c Hi Hc.
  apply rmax_perm. apply (mt_values 3 t e e2 up lo up2 lo2 ps qs); auto. intros j j2 Hj. unfold fval. now rewrite (HF j j2 Hj).
Qed.
