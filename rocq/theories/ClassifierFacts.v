(** Facts about the layers and blocks of the classification networks. *)
From Coq Require Import String List Arith ZArith QArith Reals Qreals Lia Lra Bool Permutation.
From Verif Require Import Tensor TensorFacts Spec SpecText TextFacts PointCloud SpecCloud PointCloudFacts QFacts Grid SpecGrid GridFacts
  Neighbors SpecNeighbors NeighborFacts NeighborProofs Neighborhood NeighborhoodFacts NeighborhoodProofs
  Sampling SpecSampling SamplingFacts SamplingProofs Hierarchy SpecHierarchy HierarchyFacts HierarchyProofs OnePointProofs LevelFacts CloudProofs Pdf SpecPdf PdfFacts PdfProofs
  RTensor RTensorFacts Kernels KernelProofs Layers SpecLayers LayerFacts LayerLink LayerProofs ConvProofs Blocks SpecBlocks BlockFacts BlockProofs
  Classifier SpecClassifier.
Import ListNotations.
Local Open Scope nat_scope.

Lemma bind_ok {A B} (r : result A) (f : A -> result B) y : bind r f = Ok y -> exists x, r = Ok x /\ f x = Ok y.
Proof. destruct r; cbn; [eauto|discriminate]. Qed.
Lemma ok_inj {A} (x y : A) : Ok x = Ok y -> x = y.
Proof. congruence. Qed.

Lemma fifteen_points a : exists f, spherical_kernel_points 15 (Some a) = Ok (ttab [15; 3] (fun idx => match idx with [k; d] => f k d | _ => 0%R end)).
Proof.
  destruct a as [[ax ay] az]. unfold spherical_kernel_points. cbn [fixed_kernel_points Nat.eqb bind].
  unfold of_rows. eexists. etransitivity; [apply rotation_matrix|]. f_equal.
  apply ttab_ext. intros idx Hi. idx_inv. reflexivity.
Qed.
Lemma kernel_point_ok a : spherical_kernel_points 15 (Some a)
  = Ok (ttab [15; 3] (fun idx => match idx with [k; d] => kernel_point a k d | _ => 0%R end)).
Proof.
  destruct (fifteen_points a) as [f Hf]. rewrite Hf. f_equal. apply ttab_ext. intros idx Hi. idx_inv.
  unfold kernel_point. rewrite Hf. rewrite tget_ttab; [reflexivity|]. constructor; [lia|constructor; [lia|constructor]].
Qed.

Lemma fold_max_ok l : l <> [] -> Forall (fun x => (0 < x)%R) l -> is_max l (fold_right Rmax 0%R l).
Proof.
  intros Hn HF. induction HF as [|x l Hx HF IH]; [congruence|]. cbn [fold_right]. destruct l as [|y l].
  - cbn [fold_right]. rewrite Rmax_left by lra. split; [now left|]. constructor; [apply Rle_refl|constructor].
  - destruct IH as [I1 I2]; [discriminate|]. set (m := fold_right Rmax 0%R (y :: l)) in *. split.
    + destruct (Rle_dec x m); [rewrite Rmax_right by auto; now right|rewrite Rmax_left by lra; now left].
    + constructor; [apply Rmax_l|]. eapply Forall_impl; [|exact I2]. intros a Ha. cbn beta in Ha. eapply Rle_trans; [exact Ha|apply Rmax_r].
Qed.

(** The convolution of the networks, whichever its type. *)
Lemma script_conv_ok eps name t mlps hidden cin cout v l r up lo pin pout feats F srt :
  conv_named name t -> script_layer name mlps hidden 32 15 (Ok cin) (Ok cout) v = Ok l ->
  workable eps 3 r (fst up) (snd up) pin (fst lo) (snd lo) pout -> (t = TPT -> 2 <= length (snd lo)) -> 0 < cin -> 0 < cout ->
  given feats pin cin F ->
  script_conv GPU eps (find_neighbors_tf GPU) (compute_pdf_tf GPU) l feats pin pout r srt
  = returned pout srt false cout (script_formula t mlps hidden v cin cout r up lo F).
Proof.
  intros Hn El W H2 Hi Ho Hg. destruct Hn as [[-> ->]|[[-> ->]|[-> ->]]]; unfold script_layer in El;
    cbn [String.eqb Ascii.eqb Bool.eqb bind new_layer] in El.
  - apply bind_ok in El. destruct El as (c & Ec & El). apply ok_inj in El. subst l. cbn [script_conv].
    eapply C34_mcconv_partial_proof; eauto; [|lra]. right; left. split; [apply means_lower; [repeat constructor|cbn; tauto]|reflexivity].
  - apply ok_inj in El. subst l. cbn [script_conv].
    specialize (H2 eq_refl). apply C34_pointconv_partial_proof; auto; [lia| |lra|].
    + left. split; [apply means_lower; [repeat constructor|cbn; tauto]|reflexivity].
    + intros i Hi' Hne. apply fold_max_ok; [destruct (near_points _ _ _ _ _ _ i); [congruence|discriminate]|].
      apply Forall_forall. intros x Hx. apply in_map_iff in Hx. destruct Hx as (j & <- & Hj).
      apply density_pos; [reflexivity|repeat constructor; lra|apply (wk_radius _ _ _ _ _ _ _ _ _ W)|].
      unfold near_points in Hj. apply filter_In in Hj. destruct Hj as [Hj _]. apply in_seq in Hj. lia.
  - apply bind_ok in El. destruct El as (c & Ec & El). apply ok_inj in El. subst l. cbn [script_conv].
    unfold mk_kpconv in Ec. cbn [Nat.eqb negb andb] in Ec. rewrite kernel_point_ok in Ec.
    destruct (C34_kpconv_partial_proof eps 3 r (fst up) (snd up) pin (fst lo) (snd lo) pout cin cout 15 false "linear"
       (fun v s => Rmax 0 (1 - v / s))%R (kernel_point (cv_angles v)) (cv_kw v) (fun _ => 0%R)
       (fun n => spherical_kernel_points n (Some (cv_angles v))) c feats F None srt false W) as (st & E & _); auto; [lia|now left|].
    rewrite E. unfold script_formula.
    match goal with |- (o <- (x <- ?a ;; _) ;; _) = _ => set (A := a) end.
    assert (EA : A = returned pout srt false cout (table (length (snd lo)) cout
      (kp_formula 3 r (fst up) (snd up) (fst lo) (snd lo) F cin 15 (cv_kw v) (fun x => Rmax 0 (1 - x))
               (fun _ k d => (kernel_point (cv_angles v) k d * (3 / 4))%R) r))).
    { unfold A. f_equal. unfold table. apply map_ext. intros i. apply map_ext. intros o. unfold kp_formula, weighted_sum.
      apply sum_over_ext. intros c0 _. apply sum_over_ext. intros k _. f_equal. apply sum_over_ext. intros p _. f_equal. f_equal. f_equal. field. }
    clearbody A. rewrite EA. cbv zeta. clear. match goal with |- _ = ?x => generalize x end. intros [x|e]; reflexivity.
Qed.

(** PointConv with one output point. *)
Lemma point_conv_single eps mlps hidden cin cout v l r (up lo : batch) pin pout feats F srt :
  script_layer "PointConv" mlps hidden 32 15 (Ok cin) (Ok cout) v = Ok l ->
  workable eps 3 r (fst up) (snd up) pin (fst lo) (snd lo) pout -> length (snd lo) = 1 -> given feats pin cin F ->
  script_conv GPU eps (find_neighbors_tf GPU) (compute_pdf_tf GPU) l feats pin pout r srt = Err InvalidArgument.
Proof.
  intros El W H1 Hg. unfold script_layer in El. cbn [String.eqb Ascii.eqb Bool.eqb bind new_layer] in El. apply ok_inj in El. subst l. cbn [script_conv].
  eapply C34_pointconv_single_refuted_proof; eauto; [|lra]. left. split; [apply means_lower; [repeat constructor|cbn; tauto]|reflexivity].
Qed.
Lemma returned_rows p n c X : matrix n c X -> returned p false false c X = Ok (Feat c (inr X)).
Proof. intros _. reflexivity. Qed.
Lemma returned_sorted eps D rows ids B p c X : cloud GPU eps D rows ids B p -> good p -> length X = length ids ->
  returned p true false c X = Ok (Feat c (inr (by_element B ids X))).
Proof.
  intros Hc G HL. pose proof (cloud_is _ _ _ _ _ _ _ Hc) as Hi. unfold returned, format_output.
  rewrite (g_sidx p G), (ic_bids _ _ _ _ _ _ _ Hi). rewrite (gather_sorted X ids B) by (auto; apply Hi). reflexivity.
Qed.
Lemma given_padded p (t : padded (list R)) C : good p -> pshape t = out_shape p -> length (prows t) = bsize p * pV t ->
  wide_enough p (pV t) -> Forall (fun row => length row = C) (prows t) ->
  given (Feat C (inl t)) p C (map (fun i => nth (nth i (bids p) 0 * pV t + rank i (bids p)) (prows t) []) (seq 0 (length (bids p)))).
Proof.
  intros G Hs Hr Hw _. destruct (flatten_features_spec p t [] G Hs Hr Hw) as (f & Ef & Lf & Hf).
  assert (E : f = map (fun i => nth (nth i (bids p) 0 * pV t + rank i (bids p)) (prows t) []) (seq 0 (length (bids p)))).
  { apply (nth_ext _ _ [] []); [now rewrite map_length, seq_length|]. intros n Hn. rewrite Lf in Hn. rewrite Hf by auto.
    symmetry. exact (nth_map_seq (fun i => nth (nth i (bids p) 0 * pV t + rank i (bids p)) (prows t) []) (length (bids p)) n [] Hn). }
  rewrite <- E. split; [reflexivity|]. split; [exact Ef|]. rewrite Lf. symmetry. apply G.
Qed.

Lemma leaky_keeps f : keeps_shape (map (map f)).
Proof.
  intros n c X [H1 H2]. split; [now rewrite map_length|]. apply Forall_forall. intros row Hr. apply in_map_iff in Hr.
  destruct Hr as (x & <- & Hx). rewrite map_length. rewrite Forall_forall in H2. auto.
Qed.
Lemma activated_keeps bn : keeps_shape bn -> keeps_shape (activated bn).
Proof. intros H n c X HX. unfold activated. apply leaky_keeps. now apply H. Qed.
Lemma activated_ok (bn : mat -> mat) c X : on_rows (fun Y => leaky_layer (bn Y)) (Feat c (inr X)) = Ok (Feat c (inr (activated bn X))).
Proof. reflexivity. Qed.
Lemma affine_matrix n cin cout w b X : matrix n cout (affine n cin cout w b X).
Proof. apply matrix_table. Qed.
Lemma formula_matrix t mlps hidden v cin cout r up lo F : matrix (length (snd lo)) cout (script_formula t mlps hidden v cin cout r up lo F).
Proof. apply matrix_table. Qed.
Lemma element_total {A} B (X : list A) ids : length X = length ids -> Forall (fun b => b < B) ids -> Permutation (concat (map (fun b => element b X ids) (seq 0 B))) X.
Proof. intros H1 H2. now apply elements_perm. Qed.
Lemma by_element_matrix B ids n c X : length ids = n -> Forall (fun b => b < B) ids -> matrix n c X -> matrix n c (by_element B ids X).
Proof.
  intros Hn HB [H1 H2]. assert (P : Permutation (by_element B ids X) X) by (apply elements_perm; auto; lia). split.
  - now rewrite (Permutation_length P).
  - rewrite Forall_forall in *. intros row Hr. apply H2. now apply (Permutation_in _ P).
Qed.

(** The dense layers. *)
Lemma dense_ok n c u w b X : matrix n c X -> dense u w b (Feat c (inr X)) = Ok (Feat u (inr (affine n c u w b X))).
Proof.
  intros HX. unfold dense. cbn [frows fch]. assert (E : of_rows c X = ttab [n; c] (fun idx => match idx with [i; j] => fval X i j | _ => 0%R end)).
  { rewrite <- (table_fval n c X HX) at 1. apply of_rows_table. }
  rewrite E, tmatmul2_ttab. cbn [bind]. rewrite (tbin_ttab _ _ _ [n; u]) by bc. cbn [bind]. f_equal. f_equal. f_equal.
  match goal with |- to_rows ?t = _ => replace t with (of_rows u (affine n c u w b X)) end.
  - apply (to_rows_of_rows n), affine_matrix.
  - unfold affine. rewrite of_rows_table. apply ttab_ext. intros idx Hi. idx_inv. cbn [bc_index Nat.eqb].
    rewrite (bc_self n i), (bc_self u i0) by lia. reflexivity.
Qed.
Lemma add_features_ok n c X Y : matrix n c X -> matrix n c Y ->
  add_features (Feat c (inr X)) (Feat c (inr Y)) = Ok (Feat c (inr (mat_add n c X Y))).
Proof.
  intros HX HY. unfold add_features, as_ten. cbn [frows fch bind]. rewrite (add_rows n) by auto. cbn [bind].
  apply (as_feat_of_rows n). apply matrix_table.
Qed.

(** ** The levels of a call *)
Lemma ids_nonempty sizes B : length sizes = B -> Forall (fun n => 1 <= n) sizes -> all_nonempty B (ids_of_sizes sizes).
Proof.
  intros HL HF b Hb. unfold ids_of_sizes. apply in_concat. exists (repeat b (nth b sizes 0)). split.
  - apply in_map_iff. exists b. split; [reflexivity|]. apply in_seq. lia.
  - rewrite Forall_forall in HF. assert (HI : In (nth b sizes 0) sizes) by (apply nth_In; lia). specialize (HF _ HI). destruct (nth b sizes 0); [lia|now left].
Qed.
Lemma valid_rows_in {A} sizes V (rows : list A) x : In x (valid_rows sizes V rows) -> In x rows.
Proof.
  intros H. unfold valid_rows in H. apply in_concat in H. destruct H as (l & Hl & Hx). apply in_map_iff in Hl. destruct Hl as (b & <- & _).
  assert (Hx' : In x (skipn (b * V) rows)) by (rewrite <- (firstn_skipn (nth b sizes 0) (skipn (b * V) rows)); apply in_or_app; now left).
  rewrite <- (firstn_skipn (b * V) rows). apply in_or_app. now right.
Qed.
Lemma two_elements B ids : 2 <= B -> all_nonempty B ids -> 2 <= length ids.
Proof.
  intros HB HN. pose proof (HN 0 ltac:(lia)) as H0. pose proof (HN 1 ltac:(lia)) as H1.
  destruct ids as [|a [|b ids]]; [destruct H0|destruct H0 as [H0|[]]; destruct H1 as [H1|[]]; congruence|cbn; lia].
Qed.

(** What is known about the cloud [q] of a level with data [b]. *)
Record level_cloud (eps : Q) (B : nat) (sizes : list nat) (b : batch) (q : pc) : Prop := {
  lc_cloud : cloud GPU eps 3 (fst b) (snd b) B q;
  lc_good : good q;
  lc_shape : out_shape q = [B];
  lc_all : all_nonempty B (snd b);
  lc_two : 2 <= B -> 2 <= length (snd b);
  lc_few : forall e, e < B -> count_occ Nat.eq_dec (snd b) e <= nth e sizes 0 }.

(** A hierarchy is built, or a Poisson level above the last one has one point. *)
Lemma script_hierarchy_either eps B V points sizes radii mode fuel draws : padded_input eps B V points sizes radii mode fuel ->
  let input := (valid_rows sizes V points, ids_of_sizes sizes) in
  (exists k data, script_hierarchy GPU eps (find_neighbors_tf GPU) fuel draws B (Padded [B] V points) sizes radii mode = Some (Err InvalidArgument) /\
     means mode poisson_names /\ k < length radii /\
     chain (next_level mode eps 3) (firstn k (map (fun r => repeat r 3) radii)) (input :: data) /\
     length (snd (last data input)) = 1) \/
  exists h data, let levels := input :: data in
    script_hierarchy GPU eps (find_neighbors_tf GPU) fuel draws B (Padded [B] V points) sizes radii mode = Some (Ok h) /\
    chain (next_level mode eps 3) (map (fun r => repeat r 3) radii) levels /\
    length (hclouds h) = length levels /\
    (means mode poisson_names -> forall k b, k < length radii -> nth_error levels k = Some b -> 2 <= length (snd b)) /\
    forall i b, nth_error levels i = Some b ->
      exists q, nth_error (hclouds h) i = Some q /\ level_cloud eps B sizes b q.
Proof.
  intros [[P1 P2] [S1 S2] HB1 Hm Hb] input. subst input. set (rows := valid_rows sizes V points) in *. set (ids := ids_of_sizes sizes) in *.
  assert (HD : describes (PN 3 (Padded [B] V points)) None (Some B) (Some (ITensor [B] sizes)) 3 rows ids (nprod [B])).
  { apply by_padding; cbn [nprod fold_right]; rewrite ?Nat.mul_1_r; auto. eapply Forall_impl; [|exact S2]. cbn. intros. lia. }
  assert (EB : nprod [B] = B) by (unfold nprod; cbn; lia). rewrite EB in HD.
  destruct (describes_init _ _ _ _ _ _ _ _ HD) as (p & Ep & [G F1 F2 F3 F4 F5] & _ & Hbs & _). cbn [pshape] in Hbs.
  assert (Hc : cloud GPU eps 3 rows ids B p).
  { eapply cloud_new; eauto.
    - pose proof (PointCloudFacts.g_len p G). congruence.
    - pose proof (PointCloudFacts.g_ids p G) as H. rewrite F3, F4 in H. exact H.
    - rewrite Forall_forall in *. intros x Hx. apply P2. eapply valid_rows_in; eauto. }
  assert (HN : all_nonempty B ids).
  { apply ids_nonempty; auto. eapply Forall_impl; [|exact S2]. cbn. lia. }
  destruct (hierarchy_gen eps 3 rows ids B p (map (fun r => [r]) radii) mode fuel draws Hc Hb Hm) as ([h|e] & Er & Hr); cycle 1.
  { left. destruct (C25_either_proof eps 3 rows ids B p (map (fun r => [r]) radii) mode fuel draws Hc Hb Hm) as [(k & data & E & Hpo & Hk & Hch & H1)|(h & data & E & _)];
      [|rewrite E in Er; discriminate Er].
    exists k, data. rewrite map_length in Hk. rewrite map_map in E, Hch. unfold script_hierarchy. rewrite S1, Ep. auto. }
  right. destruct Hr as ((_ & data & Hch & Hcl & _ & _ & Hgood & _ & _ & H2p) & _ & _). exists h, data. cbv zeta. rewrite map_length in H2p.
  rewrite map_map in Er. rewrite map_map in Hch. change (map (fun x => filled_with_first 3 [x]) radii) with (map (fun r => repeat r 3) radii) in Hch.
  split; [|split; [exact Hch|split; [|split; [exact H2p|]]]].
  - unfold script_hierarchy. rewrite S1, Ep. exact Er.
  - symmetry. exact (F2_length _ _ _ Hcl).
  - intros i b Hi. destruct (F2_nth _ _ _ _ _ Hcl Hi) as (q & Eq & Hq1 & Hq2). exists q. split; [exact Eq|].
    destruct (get_aabb_good GPU eps p G) as [G' _]. specialize (Hgood HN G'). rewrite Forall_forall in Hgood.
    specialize (Hgood q (nth_error_In _ _ Eq)).
    pose proof (ic_len _ _ _ _ _ _ _ (cloud_is _ _ _ _ _ _ _ Hc)) as HL.
    destruct (structure_any eps 3 mode (map (fun r => [r]) radii) rows ids data) with (i := 0) (j := i) (b := (rows, ids)) (b' := b)
      as [[T1 T2] _]; auto; [rewrite map_map; exact Hch|lia|]. cbn [snd] in T1, T2.
    assert (HNb : all_nonempty B (snd b)) by (intros e He; apply T2, HN, He).
    constructor; auto.
    + unfold out_shape. destruct (psizes q) as [t|] eqn:Eps.
      * apply (g_bsizes q Hgood [B] t); [congruence|auto].
      * now rewrite Hq2, Hbs.
    + intros H2. now apply (two_elements B).
    + intros e He. specialize (T1 e). replace (nth e sizes 0) with (count_occ Nat.eq_dec ids e); [exact T1|].
      pose proof (ids_sizes_true sizes) as X. fold ids in X. rewrite S1 in X. rewrite <- X. unfold true_sizes. symmetry.
      exact (nth_map_seq (fun b => count_occ Nat.eq_dec ids b) B e 0 He).
Qed.
Lemma input_padded eps B V points sizes radii mode fuel : input_batch eps B V points sizes radii mode fuel -> padded_input eps B V points sizes radii mode fuel.
Proof. intros [H1 H2 [H3 _] H4 H5]. constructor; auto. Qed.
Lemma padded_facts eps B V points sizes radii mode fuel : padded_input eps B V points sizes radii mode fuel ->
  length (valid_rows sizes V points) = length (ids_of_sizes sizes).
Proof.
  intros [[P1 P2] [S1 S2] HB1 Hm Hb]. set (rows := valid_rows sizes V points) in *. set (ids := ids_of_sizes sizes) in *.
  assert (HD : describes (PN 3 (Padded [B] V points)) None (Some B) (Some (ITensor [B] sizes)) 3 rows ids (nprod [B])).
  { apply by_padding; cbn [nprod fold_right]; rewrite ?Nat.mul_1_r; auto. eapply Forall_impl; [|exact S2]. cbn. intros. lia. }
  destruct (describes_init _ _ _ _ _ _ _ _ HD) as (p & Ep & [G F1 F2 F3 F4 F5] & _). pose proof (PointCloudFacts.g_len p G). congruence.
Qed.
Lemma chain_elements mode eps D xs input data B : chain (next_level mode eps D) xs (input :: data) -> length (fst input) = length (snd input) ->
  all_nonempty B (snd input) -> all_nonempty B (snd (last data input)).
Proof.
  intros Hch HL Hn.
  assert (P : forall i y, nth_error (input :: data) i = Some y -> length (fst y) = length (snd y) /\ all_nonempty B (snd y)).
  { apply (chain_every _ (fun y => length (fst y) = length (snd y) /\ all_nonempty B (snd y)) _ _) with (2 := Hch).
    - intros x y z [Y1 Y2] HR. destruct (next_level_reps _ _ _ _ _ _ Y1 HR) as (_ & _ & _ & _ & H & Hin). split; [exact H|]. intros e He. apply Hin, Y2, He.
    - intros y E. injection E as <-. auto. }
  apply (P (length data)). clear. revert input. induction data as [|y data IH]; intros x; [reflexivity|].
  rewrite OnePointProofs.last_of. exact (IH y).
Qed.
Lemma script_hierarchy_ok eps B V points sizes radii mode fuel draws : input_batch eps B V points sizes radii mode fuel ->
  exists h data, let levels := (valid_rows sizes V points, ids_of_sizes sizes) :: data in
    script_hierarchy GPU eps (find_neighbors_tf GPU) fuel draws B (Padded [B] V points) sizes radii mode = Some (Ok h) /\
    chain (next_level mode eps 3) (map (fun r => repeat r 3) radii) levels /\
    length (hclouds h) = length levels /\
    forall i b, nth_error levels i = Some b ->
      exists q, nth_error (hclouds h) i = Some q /\ level_cloud eps B sizes b q.
Proof.
  intros Hb. pose proof (input_padded _ _ _ _ _ _ _ _ Hb) as Hp.
  destruct (script_hierarchy_either eps B V points sizes radii mode fuel draws Hp) as [(k & data & _ & Hpo & _ & Hch & H1)|(h & data & H1 & H2 & H3 & _ & H4)]; cbv zeta in *.
  - exfalso. destruct Hb as [_ [S1 S2] [_ HB] _ _].
    assert (HN : all_nonempty B (ids_of_sizes sizes)) by (apply ids_nonempty; auto; eapply Forall_impl; [|exact S2]; cbn; lia).
    assert (HL : length (valid_rows sizes V points) = length (ids_of_sizes sizes)).
    { exact (padded_facts _ _ _ _ _ _ _ _ Hp). }
    pose proof (two_elements B _ (HB Hpo) (chain_elements _ _ _ _ _ _ B Hch HL HN)) as X. exact (Nat.nle_succ_diag_l 1 (eq_ind _ (fun n => 2 <= n) X _ H1)).
  - exists h, data. auto.
Qed.

(** A level's cloud with features for every point, padded like the input. *)
Lemma level_given eps B sizes V b q C features : level_cloud eps B sizes b q -> length sizes = B -> Forall (fun n => n <= V) sizes ->
  length features = B * V -> Forall (fun row => length row = C) features ->
  given (Feat C (inl (Padded [B] V features))) q C (rows_for V (snd b) features).
Proof.
  intros [Hc G Hs HN H2 Hf] S1 S2 HF HC. pose proof (cloud_is _ _ _ _ _ _ _ Hc) as Hi. unfold rows_for.
  rewrite <- (ic_bids _ _ _ _ _ _ _ Hi). apply (given_padded q (Padded [B] V features) C); auto; cbn [pV prows].
  - now rewrite (ic_bsize _ _ _ _ _ _ _ Hi).
  - unfold wide_enough, true_sizes. rewrite (ic_bsize _ _ _ _ _ _ _ Hi), (ic_bids _ _ _ _ _ _ _ Hi). apply Forall_forall.
    intros n Hn. apply in_map_iff in Hn. destruct Hn as (e & <- & He). apply in_seq in He.
    specialize (Hf e ltac:(lia)). rewrite Forall_forall in S2. assert (HI : In (nth e sizes 0) sizes) by (apply nth_In; lia). specialize (S2 _ HI). lia.
Qed.
Lemma conv1x1_ok n cin cout w b l X p : mk_conv1x1 cin cout w b = Ok l -> matrix n cin X -> length (pts p) = n ->
  conv1x1_call l (Feat cin (inr X)) p false false = Ok (Feat cout (inr (affine n cin cout w b X))).
Proof.
  intros El HX Hp. rewrite (C34_conv1x1_proof p (Feat cin (inr X)) cin cout X w b l false false El) by now apply (given_rows n).
  rewrite Hp. reflexivity.
Qed.
