(** Proofs of the properties of the network of modelnet40.py (C59). The
    statements are copied verbatim into PropertiesLarge.v. *)
From Coq Require Import String List Arith ZArith QArith Reals Qreals Lia Lra Bool Permutation.
From Verif Require Import Tensor TensorFacts Spec SpecText TextFacts PointCloud SpecCloud PointCloudFacts QFacts Grid SpecGrid GridFacts
  Neighbors SpecNeighbors NeighborFacts NeighborProofs Neighborhood NeighborhoodFacts NeighborhoodProofs
  Sampling SpecSampling SamplingFacts SamplingProofs Hierarchy SpecHierarchy HierarchyFacts HierarchyProofs LevelFacts CloudProofs Pdf SpecPdf PdfFacts PdfProofs
  RTensor RTensorFacts Kernels KernelProofs Layers SpecLayers LayerFacts LayerLink LayerProofs ConvProofs Blocks SpecBlocks BlockFacts BlockProofs
  Classifier SpecClassifier ClassifierFacts LastLevelFacts ClassifierProofs LargeFacts.
Import ListNotations.
Local Open Scope nat_scope.

Lemma py_nth_last {A} (l : list A) k x : length l = S k -> nth_error l k = Some x -> py_nth l (-1) = Ok x.
Proof.
  intros HL E. unfold py_nth. cbn [Z.ltb Z.compare]. destruct (Z.ltb_spec (-1 + Z.of_nat (length l)) 0); [lia|].
  replace (Z.to_nat (-1 + Z.of_nat (length l))) with k by lia. now rewrite E.
Qed.
Lemma nonempty_length B ids : all_nonempty B ids -> B <= length ids.
Proof.
  intros H. rewrite <- (seq_length B 0). apply NoDup_incl_length; [apply seq_NoDup|]. intros b Hb. apply in_seq in Hb. apply H. lia.
Qed.
Lemma first_entries_all n B V C (rows : list (list R)) : B <= n -> length rows = B * V ->
  first_entries n (Feat C (inl (Padded [B] V rows))) = Feat C (inl (Padded [B] V rows)).
Proof.
  intros H1 H2. unfold first_entries. cbn [frows fch pshape pV prows nprod fold_right]. rewrite Nat.min_r by auto.
  rewrite Nat.mul_1_r, firstn_all2 by lia. reflexivity.
Qed.
Lemma averaged_ok eps rows ids B p C X : cloud GPU eps 3 rows ids B p -> given (Feat C (inr X)) p C X -> all_nonempty B ids ->
  (t <- global_average_pooling GPU (Feat C (inr X)) p false ;; as_feat t) = Ok (Feat C (inr (averaged B ids C X))).
Proof.
  intros Hc Hg Hn. unfold global_average_pooling. rewrite (global_pooling_table GPU eps 3 rows ids B p _ C X red_mean false Hc Hg). cbv zeta. cbn [bind].
  transitivity (as_feat (of_rows C (averaged B ids C X))); [f_equal|apply (as_feat_of_rows B), matrix_table].
  unfold averaged. rewrite of_rows_table. apply ttab_ext. intros idx Hi. idx_inv. apply red_mean_ok. intros E. apply map_eq_nil in E.
  match goal with H : ?b < B |- _ => specialize (Hn b H); apply members_In in Hn; contradiction end.
Qed.

Lemma large_either :
  forall eps B V points sizes feature_sizes pool_radii conv_radii name t mode iv sv bv net bns bnb bn drop dw db fuel draws,
    let L := length pool_radii in
    let chans := fun i => nth i feature_sizes 0 in
    let u1 := nth (length feature_sizes - 2) feature_sizes 0 in
    let u2 := nth (length feature_sizes - 1) feature_sizes 0 in
    let input := (valid_rows sizes V points, ids_of_sizes sizes) in
    padded_input eps B V points sizes pool_radii mode fuel -> 0 < L ->
    search_radii eps B input L conv_radii -> conv_named name t -> (forall i, i < L -> 4 <= chans i) ->
    mk_large feature_sizes pool_radii conv_radii name mode iv sv bv = Ok net ->
    (forall i k, keeps_shape (bns i k)) -> (forall i k, keeps_shape (bnb i k)) ->
    (forall k, keeps_shape (bn k)) -> (forall k, keeps_shape (drop k)) ->
    (exists k data, k <= L /\ (means mode poisson_names /\ k < L \/ t = TPT /\ 0 < k) /\
       chain (next_level mode eps 3) (firstn k (map (fun r => repeat r 3) pool_radii)) (input :: data) /\
       length (snd (last data input)) = 1 /\
       forall x X, (0 < k -> forall q, level_cloud eps B sizes (nth 0 data input) q -> given (first_entries (length (snd (nth 0 data input))) x) q 1 X) ->
       large_call GPU eps (find_neighbors_tf GPU) (compute_pdf_tf GPU) net bns bnb bn drop dw db fuel draws B
         (Padded [B] V points) x sizes = Some (Err InvalidArgument)) \/
    exists data, chain (next_level mode eps 3) (map (fun r => repeat r 3) pool_radii) (input :: data) /\
      (means mode poisson_names -> forall k b, k < L -> nth_error (input :: data) k = Some b -> 2 <= length (snd b)) /\
      (t = TPT -> forall k b, 0 < k -> nth_error (input :: data) k = Some b -> 2 <= length (snd b)) /\
      (exists q, level_cloud eps B sizes (nth 0 data input) q) /\
      forall x X, (forall q, level_cloud eps B sizes (nth 0 data input) q -> given (first_entries (length (snd (nth 0 data input))) x) q 1 X) ->
      let conv := fun v cin cout r up lo X => script_formula t 1 16 v cin cout r up lo X in
      let strided := fun i p up lo X => block_formula (conv (bv_conv (sv i))) (bns i) (sv i) (chans (i - 1)) (chans i) p (Some p) up lo X in
      let plain := fun i c lo X => block_formula (conv (bv_conv (bv i))) (bnb i) (bv i) (chans i) (chans i) c None lo lo X in
      let first := nth 0 data input in
      let c0 := nth 0 conv_radii 0%Q in
      let start := plain 0 c0 first (conv iv 1 (chans 0) c0 first first X) in
      let encoding := deeper strided plain 1 (tl pool_radii) (tl conv_radii) first (tl data) start in
      let logits := dense_head (fun X => drop 0 (activated (bn 0) X)) (activated (fun X => drop 1 (bn 1 X)))
        dw db B (chans (L - 1)) u1 u2 (averaged B (snd (last data input)) (chans (L - 1)) encoding) in
      matrix B u2 logits /\
      large_call GPU eps (find_neighbors_tf GPU) (compute_pdf_tf GPU) net bns bnb bn drop dw db fuel draws B
        (Padded [B] V points) x sizes
      = Some (Ok (Feat u2 (inr logits))).
Proof.
  intros eps B V points sizes fs ps cs name t mode iv sv bv net bns bnb bn drop dw db fuel draws L chans u1 u2 input
    Hb HL [Hc1 Hc2] Hn Hpos Hnet Hbs Hbb Hbn Hdr.
  pose proof (mk_large_inv _ _ _ _ _ _ _ _ _ Hnet) as (N1 & N2 & N3 & N4 & N5 & N6 & N7 & N8 & N9 & N10). cbv zeta in *. fold L in N1, N7, N8, N9, N10.
  destruct (script_hierarchy_either eps B V points sizes ps mode fuel draws Hb) as [(k & data & Eh & Hpo & Hk & Hch & H1)|(h & data & Eh & Hch & Hlen & H2p & Hlev)].
  { left. exists k, data. split; [fold L in Hk; lia|]. split; [now left|]. split; [exact Hch|]. split; [exact H1|]. intros x X _. unfold large_call. rewrite N2, N4, Eh. reflexivity. }
  cbv zeta in *. fold input in Hch, Hlen, H2p, Hlev.
  assert (Hll : length (input :: data) = S L).
  { pose proof (chain_length _ _ _ Hch) as Y. rewrite map_length in Y. exact Y. }
  assert (Hps : Forall (fun r => (0 < r)%Q /\ few_cells eps 3 (repeat r 3) B input) ps).
  { destruct (pi_build _ _ _ _ _ _ _ _ Hb) as [_ _ _ _ _ _ I7 I8]. rewrite Forall_map in I7, I8. rewrite Forall_forall in *.
    intros r Hr. split; [|exact (I8 r Hr)]. destruct (I7 r Hr) as (_ & _ & X & _). now inversion X. }
  pose proof (levels_search _ _ _ _ _ _ _ _ _ (cs ++ ps) Hb Hch (proj2 (Forall_app _ _ _) (conj Hc2 Hps))) as Hwork. cbv zeta in Hwork. fold input in Hwork.
  assert (Hwork' : forall i j r up lo pin pout, In r cs \/ In r ps -> nth_error (input :: data) i = Some up -> nth_error (input :: data) j = Some lo ->
    level_cloud eps B sizes up pin -> level_cloud eps B sizes lo pout -> workable eps 3 r (fst up) (snd up) pin (fst lo) (snd lo) pout).
  { intros i j r up lo pin pout Hr. apply Hwork. now apply in_or_app. }
  pose proof (pi_clouds _ _ _ _ _ _ _ _ Hb) as HB1.
  destruct data as [|lo data]; [cbn in Hll; lia|].
  destruct (Hlev 1 lo eq_refl) as (pout & Eq & Lo).
  assert (Hfail : t = TPT -> forall j b, 0 < j -> nth_error (input :: lo :: data) j = Some b -> length (snd b) = 1 ->
    (forall x X, (forall q, level_cloud eps B sizes lo q -> given (first_entries (length (snd lo)) x) q 1 X) ->
       large_loop GPU eps (find_neighbors_tf GPU) (compute_pdf_tf GPU) net bns bnb h (seq 0 L) x = Err InvalidArgument) ->
    exists k data', k <= L /\ (means mode poisson_names /\ k < L \/ t = TPT /\ 0 < k) /\
       chain (next_level mode eps 3) (firstn k (map (fun r => repeat r 3) ps)) (input :: data') /\
       length (snd (last data' input)) = 1 /\
       forall x X, (0 < k -> forall q, level_cloud eps B sizes (nth 0 data' input) q -> given (first_entries (length (snd (nth 0 data' input))) x) q 1 X) ->
       large_call GPU eps (find_neighbors_tf GPU) (compute_pdf_tf GPU) net bns bnb bn drop dw db fuel draws B
         (Padded [B] V points) x sizes = Some (Err InvalidArgument)).
  { intros T1 j b J1 J2 J3 E. destruct (chain_prefix _ _ _ _ Hch j b J2) as [Hpre Elast]. exists j, (firstn j (lo :: data)).
    assert (Hj : j < length (input :: lo :: data)).
    { apply nth_error_Some. intros X. pose proof (eq_trans (eq_sym J2) X) as Y. discriminate Y. }
    split; [rewrite Hll in Hj; lia|]. split; [right; split; [exact T1|exact J1]|]. split; [exact Hpre|].
    split; [exact (eq_trans (f_equal (fun b : batch => length (snd b)) Elast) J3)|].
    intros x X Hx. specialize (Hx J1). destruct j as [|j]; [lia|]. cbn [firstn nth] in Hx.
    unfold large_call. rewrite N1, N2, N4, Eh. f_equal. rewrite (E x X Hx). reflexivity. }
  destruct cs as [|c0 cs]; [cbn in Hc1; lia|]. destruct ps as [|p0 ps]; [cbn in HL; lia|]. 
  pose proof (level_length eps B sizes lo pout Lo) as Lp.
  destruct (N7 HL) as (ci & Eci & Mci). destruct (N10 0 HL) as (b0 & Eb0 & Mb0).
  assert (E0 : item fs 0 = Ok (chans 0)).
  { apply item_ok. apply nth_error_nth'. apply N8. lia. }
  rewrite E0 in Mci. pose proof (Hpos 0 HL) as P0.
  pose proof (Hwork' 1 1 c0 lo lo pout pout (or_introl (or_introl eq_refl)) eq_refl eq_refl Lo Lo) as W.
  assert (Es : seq 0 L = 0 :: seq 1 (L - 1)) by (replace L with (S (L - 1)) at 1 by lia; reflexivity).
  assert (Hrun : forall x X, (forall q, level_cloud eps B sizes lo q -> given (first_entries (length (snd lo)) x) q 1 X) ->
    (t = TPT /\ (exists j b, 0 < j /\ nth_error (input :: lo :: data) j = Some b /\ length (snd b) = 1) /\
     large_loop GPU eps (find_neighbors_tf GPU) (compute_pdf_tf GPU) net bns bnb h (seq 0 L) x = Err InvalidArgument) \/
    (t = TPT -> forall k b, 0 < k -> nth_error (input :: lo :: data) k = Some b -> 2 <= length (snd b)) /\
      (let conv := fun v cin cout r up lo X => script_formula t 1 16 v cin cout r up lo X in
      let strided := fun i p up lo X => block_formula (conv (bv_conv (sv i))) (bns i) (sv i) (chans (i - 1)) (chans i) p (Some p) up lo X in
      let plain := fun i c lo X => block_formula (conv (bv_conv (bv i))) (bnb i) (bv i) (chans i) (chans i) c None lo lo X in
      let first := lo in
      let c0 := c0 in
      let start := plain 0 c0 first (conv iv 1 (chans 0) c0 first first X) in
      let encoding := deeper strided plain 1 ps cs first data start in
      let logits := dense_head (fun X => drop 0 (activated (bn 0) X)) (activated (fun X => drop 1 (bn 1 X)))
        dw db B (chans (L - 1)) u1 u2 (averaged B (snd (last (lo :: data) input)) (chans (L - 1)) encoding) in
      matrix B u2 logits /\
      large_call GPU eps (find_neighbors_tf GPU) (compute_pdf_tf GPU) net bns bnb bn drop dw db fuel draws B
        (Padded [B] V points) x sizes
      = Some (Ok (Feat u2 (inr logits))))).
  { intros x X Hx.
  destruct (level_case eps B sizes name t Hn HB1 lo pout Lo) as [(T1 & T2 & T3)|H2].
  { left. split; [exact T1|]. split; [exists 1, lo; split; [lia|]; split; [reflexivity|exact T3]|]. rewrite Es. cbn [large_loop Nat.eqb].
    unfold h_getitem at 1. change (Z.of_nat 0 + 1)%Z with (Z.of_nat 1). rewrite py_nth_nat, Eq. cbn [bind]. rewrite (item_ok _ _ _ Eci). cbn [bind].
    rewrite N3. unfold item at 1. rewrite py_nth_nat. cbn [nth_error bind]. rewrite T2 in Mci.
    rewrite Lp, (point_conv_single eps 1 16 _ _ iv ci c0 lo lo pout pout _ _ false Mci W T3 (Hx pout Lo)). reflexivity. }
  set (X0 := script_formula t 1 16 iv 1 (chans 0) c0 lo lo X).
  assert (M0 : matrix (length (snd lo)) (chans 0) X0) by apply formula_matrix.
  pose proof (script_conv_ok eps name t 1 16 1 (chans 0) iv ci c0 lo lo pout pout _ _ false Hn Mci W H2 ltac:(lia) ltac:(lia) (Hx pout Lo)) as Q0.
  rewrite (returned_rows pout (length (snd lo))) in Q0 by exact M0. fold X0 in Q0.
  pose proof (block_ok eps name t (chans 0) (chans 0) None (bv 0) b0 (bnb 0) c0 lo lo pout pout X0 Hn Mb0 (Hbb 0) P0 W H2 Lp Lp eq_refl M0) as Q1.
  cbn [option_map] in Q1. set (X1 := block_formula _ _ _ _ _ _ _ _ _ X0) in Q1 |- *.
  assert (M1 : matrix (length (snd lo)) (chans (1 - 1)) X1) by apply mat_add_matrix.
  assert (Erun : forall y, large_loop GPU eps (find_neighbors_tf GPU) (compute_pdf_tf GPU) net bns bnb h (seq 1 (L - 1)) (Feat (chans 0) (inr X1)) = y ->
    large_loop GPU eps (find_neighbors_tf GPU) (compute_pdf_tf GPU) net bns bnb h (seq 0 L) x = y).
  { intros y Ey. rewrite Es. cbn [large_loop Nat.eqb].
    unfold h_getitem at 1. change (Z.of_nat 0 + 1)%Z with (Z.of_nat 1). rewrite py_nth_nat, Eq. cbn [bind]. rewrite (item_ok _ _ _ Eci). cbn [bind].
    rewrite N3. unfold item at 1. rewrite py_nth_nat. cbn [nth_error bind].
    rewrite Lp, Q0. cbn [bind]. rewrite (item_ok _ _ _ Eb0). cbn [bind].
    unfold item at 1. rewrite py_nth_nat. cbn [nth_error bind]. rewrite Q1. cbn [bind]. exact Ey. }
  destruct (deeper_either eps B sizes h (input :: lo :: data) fs (p0 :: ps) (c0 :: cs) name mode t iv sv bv net bns bnb Hnet Hn HB1 Hpos Hbs Hbb Hll Hc1 Hlev Hwork'
    (L - 1) 1 X1 lo ltac:(lia) ltac:(unfold L in *; lia) eq_refl M1) as [(T1 & (j & b & J1 & J2 & J3) & E)|(bottom & Ebot & H2t & M & E)].
  { left. split; [exact T1|]. split; [exists j, b; split; [lia|]; split; [exact J2|exact J3]|]. apply Erun, E. }
  right. split; [intros T j b Hj Ej; destruct (Nat.eq_dec j 1) as [->|e]; [injection Ej as <-; auto|]; apply (H2t T j); [lia|exact Ej]|]. cbv zeta.
  fold L in Ebot, M, E. cbn [skipn] in M, E. change (nth (1 - 1) fs 0) with (chans 0) in E.
  assert (Eb : last (lo :: data) input = bottom).
  { pose proof (last_nth (lo :: data) input) as H1. replace (length (lo :: data)) with L in H1 by (cbn [length] in Hll |- *; lia).
    assert (HX : Some (last (lo :: data) input) = Some bottom) by (rewrite <- H1; exact Ebot). now injection HX. }
  rewrite Eb. split; [apply affine_matrix|].
  destruct (Hlev _ _ Ebot) as (qb & Eqb & Lb).
  unfold large_call. rewrite N1, N2, N4, Eh. f_equal.
  rewrite (Erun _ E). cbn [bind].
  unfold h_getitem. rewrite (py_nth_last _ L qb) by (auto; rewrite Hlen; exact Hll). cbn [bind].
  pose proof (level_length eps B sizes bottom qb Lb) as Lq.
  pose proof (averaged_ok eps _ _ B qb _ _ (lc_cloud _ _ _ _ _ Lb) (given_rows _ _ _ qb M Lq) (lc_all _ _ _ _ _ Lb)) as Q2.
  apply bind_ok in Q2. destruct Q2 as (tt' & Q2 & Q3). rewrite Q2. cbn [bind]. rewrite Q3. cbn [bind]. rewrite N5, N6.
  unfold on_rows at 1. cbn [frows fch bind]. rewrite (dense_ok B) by (apply Hdr, (activated_keeps (bn 0) (Hbn 0)), matrix_table). cbn [bind].
  unfold on_rows. cbn [frows fch bind].
  rewrite (dense_ok B) by (apply (activated_keeps (fun X => drop 1 (bn 1 X))); [intros n c Y HY; apply Hdr, Hbn, HY|apply affine_matrix]). reflexivity. }
  assert (Hdec : (t = TPT /\ exists j b, 0 < j /\ nth_error (input :: lo :: data) j = Some b /\ length (snd b) = 1) \/
    (t = TPT -> forall j b, 0 < j -> nth_error (input :: lo :: data) j = Some b -> 2 <= length (snd b))).
  { destruct (Exists_dec (fun b : batch => length (snd b) = 1) (lo :: data) (fun b => Nat.eq_dec _ 1)) as [Y|Y].
    - apply Exists_exists in Y. destruct Y as (b & Y1 & Y2). apply In_nth_error in Y1. destruct Y1 as (j & Y1).
      destruct t; first [left; split; [reflexivity|]; exists (S j), b; split; [lia|]; split; [exact Y1|exact Y2]|right; discriminate].
    - right. intros _ [|j] b Hj Ej; [lia|]. destruct (Hlev _ _ Ej) as (q & _ & Lq).
      pose proof (nonempty_length B _ (lc_all _ _ _ _ _ Lq)). assert (length (snd b) <> 1); [|lia].
      intros E1. apply Y, Exists_exists. exists b. split; [exact (nth_error_In (lo :: data) j Ej)|exact E1]. }
  destruct Hdec as [(T1 & j & b & J1 & J2 & J3)|H2].
  - left. apply (Hfail T1 j b J1 J2 J3). intros x X Hx. destruct (Hrun x X Hx) as [(_ & _ & E)|(H2 & _)]; [exact E|].
    pose proof (H2 T1 j b J1 J2). lia.
  - right. exists (lo :: data). split; [exact Hch|]. split; [exact H2p|]. split; [exact H2|]. split; [exists pout; exact Lo|].
    intros x X Hx. destruct (Hrun x X Hx) as [(T1 & (j & b & J1 & J2 & J3) & _)|(_ & H)]; [|exact H].
    pose proof (H2 T1 j b J1 J2). lia.
Qed.
Lemma large_logits :
  forall eps B V points sizes feature_sizes pool_radii conv_radii name t mode iv sv bv net bns bnb bn drop dw db fuel draws,
    let L := length pool_radii in
    let chans := fun i => nth i feature_sizes 0 in
    let u1 := nth (length feature_sizes - 2) feature_sizes 0 in
    let u2 := nth (length feature_sizes - 1) feature_sizes 0 in
    let input := (valid_rows sizes V points, ids_of_sizes sizes) in
    input_batch eps B V points sizes pool_radii mode fuel -> 0 < L ->
    search_radii eps B input L conv_radii -> conv_named name t -> (t = TPT -> 2 <= B) -> (forall i, i < L -> 4 <= chans i) ->
    mk_large feature_sizes pool_radii conv_radii name mode iv sv bv = Ok net ->
    (forall i k, keeps_shape (bns i k)) -> (forall i k, keeps_shape (bnb i k)) ->
    (forall k, keeps_shape (bn k)) -> (forall k, keeps_shape (drop k)) ->
    exists data, chain (next_level mode eps 3) (map (fun r => repeat r 3) pool_radii) (input :: data) /\
      (exists q, level_cloud eps B sizes (nth 0 data input) q) /\
      forall x X, (forall q, level_cloud eps B sizes (nth 0 data input) q -> given (first_entries (length (snd (nth 0 data input))) x) q 1 X) ->
      let conv := fun v cin cout r up lo X => script_formula t 1 16 v cin cout r up lo X in
      let strided := fun i p up lo X => block_formula (conv (bv_conv (sv i))) (bns i) (sv i) (chans (i - 1)) (chans i) p (Some p) up lo X in
      let plain := fun i c lo X => block_formula (conv (bv_conv (bv i))) (bnb i) (bv i) (chans i) (chans i) c None lo lo X in
      let first := nth 0 data input in
      let c0 := nth 0 conv_radii 0%Q in
      let start := plain 0 c0 first (conv iv 1 (chans 0) c0 first first X) in
      let encoding := deeper strided plain 1 (tl pool_radii) (tl conv_radii) first (tl data) start in
      let logits := dense_head (fun X => drop 0 (activated (bn 0) X)) (activated (fun X => drop 1 (bn 1 X)))
        dw db B (chans (L - 1)) u1 u2 (averaged B (snd (last data input)) (chans (L - 1)) encoding) in
      matrix B u2 logits /\
      large_call GPU eps (find_neighbors_tf GPU) (compute_pdf_tf GPU) net bns bnb bn drop dw db fuel draws B
        (Padded [B] V points) x sizes
      = Some (Ok (Feat u2 (inr logits))).
Proof.
  intros eps B V points sizes fs ps cs name t mode iv sv bv net bns bnb bn drop dw db fuel draws L chans u1 u2 input
    Hb HL Hs Hn Ht Hpos Hnet Hbs Hbb Hbn Hdr.
  destruct (large_either eps B V points sizes fs ps cs name t mode iv sv bv net bns bnb bn drop dw db fuel draws
    (input_padded _ _ _ _ _ _ _ _ Hb) HL Hs Hn Hpos Hnet Hbs Hbb Hbn Hdr) as [(k & data & _ & Hcase & Hch & H1 & _)|(data & Hch & _ & _ & H)].
  - exfalso. destruct (ib_sizes _ _ _ _ _ _ _ _ Hb) as [S1 S2]. destruct (ib_clouds _ _ _ _ _ _ _ _ Hb) as [_ HB].
    exact (single_no_elements _ _ _ _ _ _ B Hch (input_facts _ _ _ _ _ _ _ _ Hb)
      (ids_nonempty sizes B S1 (Forall_impl _ (fun n Hn => proj1 Hn) S2)) ltac:(destruct Hcase as [[Hp _]|[Hp _]]; auto) H1).
  - exists data. split; [exact Hch|exact H].
Qed.

(** C59, every batch, one cloud included: the logits, or an exception that a
    level with a single point causes. With Poisson disk sampling that is any
    level but the last one, which has to be sampled again, with PointConv any
    level but the first one, which a convolution has to fill. *)
Lemma C59_every_batch_partial_proof :
  forall eps B V points sizes feature_sizes pool_radii conv_radii name t mode iv sv bv net bns bnb bn drop dw db fuel draws,
    let L := length pool_radii in
    let chans := fun i => nth i feature_sizes 0 in
    let u1 := nth (length feature_sizes - 2) feature_sizes 0 in
    let u2 := nth (length feature_sizes - 1) feature_sizes 0 in
    let input := (valid_rows sizes V points, ids_of_sizes sizes) in
    padded_input eps B V points sizes pool_radii mode fuel -> 0 < L ->
    search_radii eps B input L conv_radii -> conv_named name t -> (forall i, i < L -> 4 <= chans i) ->
    mk_large feature_sizes pool_radii conv_radii name mode iv sv bv = Ok net ->
    (forall i k, keeps_shape (bns i k)) -> (forall i k, keeps_shape (bnb i k)) ->
    (forall k, keeps_shape (bn k)) -> (forall k, keeps_shape (drop k)) ->
    (exists k data, k <= L /\ (means mode poisson_names /\ k < L \/ t = TPT /\ 0 < k) /\
       chain (next_level mode eps 3) (firstn k (map (fun r => repeat r 3) pool_radii)) (input :: data) /\
       length (snd (last data input)) = 1 /\
       forall features, length features = B * V -> Forall (fun row => length row = 1) features ->
       large_call GPU eps (find_neighbors_tf GPU) (compute_pdf_tf GPU) net bns bnb bn drop dw db fuel draws B
         (Padded [B] V points) (Feat 1 (inl (Padded [B] V features))) sizes = Some (Err InvalidArgument)) \/
    exists data, chain (next_level mode eps 3) (map (fun r => repeat r 3) pool_radii) (input :: data) /\
      (means mode poisson_names -> forall k b, k < L -> nth_error (input :: data) k = Some b -> 2 <= length (snd b)) /\
      (t = TPT -> forall k b, 0 < k -> nth_error (input :: data) k = Some b -> 2 <= length (snd b)) /\
      forall features, length features = B * V -> Forall (fun row => length row = 1) features ->
      let conv := fun v cin cout r up lo X => script_formula t 1 16 v cin cout r up lo X in
      let strided := fun i p up lo X => block_formula (conv (bv_conv (sv i))) (bns i) (sv i) (chans (i - 1)) (chans i) p (Some p) up lo X in
      let plain := fun i c lo X => block_formula (conv (bv_conv (bv i))) (bnb i) (bv i) (chans i) (chans i) c None lo lo X in
      let first := nth 0 data input in
      let c0 := nth 0 conv_radii 0%Q in
      let start := plain 0 c0 first (conv iv 1 (chans 0) c0 first first (rows_for V (snd first) features)) in
      let encoding := deeper strided plain 1 (tl pool_radii) (tl conv_radii) first (tl data) start in
      let logits := dense_head (fun X => drop 0 (activated (bn 0) X)) (activated (fun X => drop 1 (bn 1 X)))
        dw db B (chans (L - 1)) u1 u2 (averaged B (snd (last data input)) (chans (L - 1)) encoding) in
      matrix B u2 logits /\
      large_call GPU eps (find_neighbors_tf GPU) (compute_pdf_tf GPU) net bns bnb bn drop dw db fuel draws B
        (Padded [B] V points) (Feat 1 (inl (Padded [B] V features))) sizes
      = Some (Ok (Feat u2 (inr logits))).
Proof.
  intros eps B V points sizes fs ps cs name t mode iv sv bv net bns bnb bn drop dw db fuel draws L chans u1 u2 input
    Hb HL Hs Hn Hpos Hnet Hbs Hbb Hbn Hdr.
  assert (Hg : forall features, length features = B * V -> Forall (fun row => length row = 1) features -> forall b q, level_cloud eps B sizes b q ->
    given (first_entries (length (snd b)) (Feat 1 (inl (Padded [B] V features)))) q 1 (rows_for V (snd b) features)).
  { intros features Hf1 Hf2 b q Lo. rewrite (first_entries_all _ B V) by (auto; apply nonempty_length, Lo).
    apply (level_given eps B sizes V b q 1 features Lo (proj1 (pi_sizes _ _ _ _ _ _ _ _ Hb))); auto.
    eapply Forall_impl; [|apply (pi_sizes _ _ _ _ _ _ _ _ Hb)]. cbn. lia. }
  destruct (large_either eps B V points sizes fs ps cs name t mode iv sv bv net bns bnb bn drop dw db fuel draws Hb HL Hs Hn Hpos Hnet Hbs Hbb Hbn Hdr)
    as [(k & data & H1 & H2 & H3 & H4 & H5)|(data & Hch & H2p & H2t & _ & Hall)].
  - left. exists k, data. split; [exact H1|]. split; [exact H2|]. split; [exact H3|]. split; [exact H4|].
    intros features Hf1 Hf2. apply (H5 _ (rows_for V (snd (nth 0 data input)) features)). intros _ q. now apply Hg.
  - right. exists data. split; [exact Hch|]. split; [exact H2p|]. split; [exact H2t|]. intros features Hf1 Hf2. apply Hall. intros q. now apply Hg.
Qed.

(** C59. The logits: the initial convolution and a residual block on the first
    sampled level, a strided and a plain residual block on every further level,
    the mean over the points of every element, then the two dense layers. There
    is one row of logits per element, in the order of the elements. The point
    number [i] of the first sampled level enters with the feature of the row of
    the padded features that has the same element and the same position in the
    element as [i]. *)
Lemma C59_logits_partial_proof :
  forall eps B V points sizes feature_sizes pool_radii conv_radii name t mode iv sv bv net bns bnb bn drop dw db fuel draws,
    let L := length pool_radii in
    let chans := fun i => nth i feature_sizes 0 in
    let u1 := nth (length feature_sizes - 2) feature_sizes 0 in
    let u2 := nth (length feature_sizes - 1) feature_sizes 0 in
    let input := (valid_rows sizes V points, ids_of_sizes sizes) in
    input_batch eps B V points sizes pool_radii mode fuel -> 0 < L ->
    search_radii eps B input L conv_radii -> conv_named name t -> (t = TPT -> 2 <= B) -> (forall i, i < L -> 4 <= chans i) ->
    mk_large feature_sizes pool_radii conv_radii name mode iv sv bv = Ok net ->
    (forall i k, keeps_shape (bns i k)) -> (forall i k, keeps_shape (bnb i k)) ->
    (forall k, keeps_shape (bn k)) -> (forall k, keeps_shape (drop k)) ->
    exists data, chain (next_level mode eps 3) (map (fun r => repeat r 3) pool_radii) (input :: data) /\
      forall features, length features = B * V -> Forall (fun row => length row = 1) features ->
      let conv := fun v cin cout r up lo X => script_formula t 1 16 v cin cout r up lo X in
      let strided := fun i p up lo X => block_formula (conv (bv_conv (sv i))) (bns i) (sv i) (chans (i - 1)) (chans i) p (Some p) up lo X in
      let plain := fun i c lo X => block_formula (conv (bv_conv (bv i))) (bnb i) (bv i) (chans i) (chans i) c None lo lo X in
      let first := nth 0 data input in
      let c0 := nth 0 conv_radii 0%Q in
      let start := plain 0 c0 first (conv iv 1 (chans 0) c0 first first (rows_for V (snd first) features)) in
      let encoding := deeper strided plain 1 (tl pool_radii) (tl conv_radii) first (tl data) start in
      let logits := dense_head (fun X => drop 0 (activated (bn 0) X)) (activated (fun X => drop 1 (bn 1 X)))
        dw db B (chans (L - 1)) u1 u2 (averaged B (snd (last data input)) (chans (L - 1)) encoding) in
      matrix B u2 logits /\
      large_call GPU eps (find_neighbors_tf GPU) (compute_pdf_tf GPU) net bns bnb bn drop dw db fuel draws B
        (Padded [B] V points) (Feat 1 (inl (Padded [B] V features))) sizes
      = Some (Ok (Feat u2 (inr logits))).
Proof.
  intros eps B V points sizes fs ps cs name t mode iv sv bv net bns bnb bn drop dw db fuel draws L chans u1 u2 input
    Hb HL Hs Hn Ht Hpos Hnet Hbs Hbb Hbn Hdr.
  destruct (large_logits eps B V points sizes fs ps cs name t mode iv sv bv net bns bnb bn drop dw db fuel draws Hb HL Hs Hn Ht Hpos Hnet Hbs Hbb Hbn Hdr)
    as (data & Hch & _ & Hall). exists data. split; [exact Hch|]. intros features Hf1 Hf2. apply Hall. intros q Lo.
  rewrite (first_entries_all _ B V) by (auto; apply nonempty_length, Lo).
  apply (level_given eps B sizes V _ q 1 features Lo (proj1 (ib_sizes _ _ _ _ _ _ _ _ Hb))); auto.
  eapply Forall_impl; [|apply (ib_sizes _ _ _ _ _ _ _ _ Hb)]. cbn. lia.
Qed.

(** C59. With features in rows, one per point, instead of padded ones: the point
    number [i] of the first sampled level enters with row [i], whichever point of
    the input it is. *)
Lemma C59_flat_features_partial_proof :
  forall eps B V points sizes feature_sizes pool_radii conv_radii name t mode iv sv bv net bns bnb bn drop dw db fuel draws,
    let L := length pool_radii in
    let chans := fun i => nth i feature_sizes 0 in
    let u1 := nth (length feature_sizes - 2) feature_sizes 0 in
    let u2 := nth (length feature_sizes - 1) feature_sizes 0 in
    let input := (valid_rows sizes V points, ids_of_sizes sizes) in
    input_batch eps B V points sizes pool_radii mode fuel -> 0 < L ->
    search_radii eps B input L conv_radii -> conv_named name t -> (t = TPT -> 2 <= B) -> (forall i, i < L -> 4 <= chans i) ->
    mk_large feature_sizes pool_radii conv_radii name mode iv sv bv = Ok net ->
    (forall i k, keeps_shape (bns i k)) -> (forall i k, keeps_shape (bnb i k)) ->
    (forall k, keeps_shape (bn k)) -> (forall k, keeps_shape (drop k)) ->
    exists data, chain (next_level mode eps 3) (map (fun r => repeat r 3) pool_radii) (input :: data) /\
      forall features, length (snd (nth 0 data input)) <= length features -> Forall (fun row => length row = 1) features ->
      let conv := fun v cin cout r up lo X => script_formula t 1 16 v cin cout r up lo X in
      let strided := fun i p up lo X => block_formula (conv (bv_conv (sv i))) (bns i) (sv i) (chans (i - 1)) (chans i) p (Some p) up lo X in
      let plain := fun i c lo X => block_formula (conv (bv_conv (bv i))) (bnb i) (bv i) (chans i) (chans i) c None lo lo X in
      let first := nth 0 data input in
      let c0 := nth 0 conv_radii 0%Q in
      let start := plain 0 c0 first (conv iv 1 (chans 0) c0 first first (firstn (length (snd first)) features)) in
      let encoding := deeper strided plain 1 (tl pool_radii) (tl conv_radii) first (tl data) start in
      let logits := dense_head (fun X => drop 0 (activated (bn 0) X)) (activated (fun X => drop 1 (bn 1 X)))
        dw db B (chans (L - 1)) u1 u2 (averaged B (snd (last data input)) (chans (L - 1)) encoding) in
      matrix B u2 logits /\
      large_call GPU eps (find_neighbors_tf GPU) (compute_pdf_tf GPU) net bns bnb bn drop dw db fuel draws B
        (Padded [B] V points) (Feat 1 (inr features)) sizes
      = Some (Ok (Feat u2 (inr logits))).
Proof.
  intros eps B V points sizes fs ps cs name t mode iv sv bv net bns bnb bn drop dw db fuel draws L chans u1 u2 input
    Hb HL Hs Hn Ht Hpos Hnet Hbs Hbb Hbn Hdr.
  destruct (large_logits eps B V points sizes fs ps cs name t mode iv sv bv net bns bnb bn drop dw db fuel draws Hb HL Hs Hn Ht Hpos Hnet Hbs Hbb Hbn Hdr)
    as (data & Hch & _ & Hall). exists data. split; [exact Hch|]. intros features Hf1 Hf2. apply Hall. intros q Lo.
  unfold first_entries. cbn [frows fch]. apply (given_rows (length (snd (nth 0 data input)))); [|exact (level_length eps B sizes _ q Lo)].
  split; [now rewrite firstn_length, Nat.min_l by exact Hf1|]. rewrite Forall_forall in *. intros row Hr. apply Hf2.
  rewrite <- (firstn_skipn (length (snd (nth 0 data input))) features). apply in_or_app. now left.
Qed.

(** C59 refuted: the features of the points that are not the first ones of their
    element have no effect if the first level has one point per element, although
    the sampled points can be other ones. *)
Lemma rank_distinct ids i : NoDup ids -> i < length ids -> rank i ids = 0.
Proof.
  intros ND Hi. unfold rank. apply count_occ_not_In. intros Hin. apply (In_nth _ _ 0) in Hin. destruct Hin as (j & Hj & E).
  rewrite firstn_length in Hj. assert (Hji : j < i) by lia.
  assert (E' : nth j ids 0 = nth i ids 0).
  { rewrite <- E. rewrite <- (firstn_skipn i ids) at 1. rewrite app_nth1 by (rewrite firstn_length; lia). reflexivity. }
  pose proof (proj1 (NoDup_nth ids 0) ND j i ltac:(lia) Hi E'). lia.
Qed.
Lemma C59_features_refuted_proof :
  forall eps B V points sizes feature_sizes r pool_radii conv_radii name t mode iv sv bv net bns bnb bn drop dw db fuel draws features features',
    let radii := r :: pool_radii in
    let input := (valid_rows sizes V points, ids_of_sizes sizes) in
    input_batch eps B V points sizes radii mode fuel ->
    search_radii eps B input (length radii) conv_radii -> conv_named name t -> (t = TPT -> 2 <= B) ->
    (forall i, i < length radii -> 4 <= nth i feature_sizes 0) ->
    mk_large feature_sizes radii conv_radii name mode iv sv bv = Ok net ->
    (forall i k, keeps_shape (bns i k)) -> (forall i k, keeps_shape (bnb i k)) ->
    (forall k, keeps_shape (bn k)) -> (forall k, keeps_shape (drop k)) ->
    length features = B * V -> Forall (fun row => length row = 1) features ->
    length features' = B * V -> Forall (fun row => length row = 1) features' ->
    one_sample mode eps r input ->
    (forall b, b < B -> nth (b * V) features [] = nth (b * V) features' []) ->
    let call := fun features => large_call GPU eps (find_neighbors_tf GPU) (compute_pdf_tf GPU) net bns bnb bn drop dw db fuel draws B
        (Padded [B] V points) (Feat 1 (inl (Padded [B] V features))) sizes in
    (exists logits, call features = Some (Ok logits)) /\ call features = call features'.
Proof.
  intros eps B V points sizes fs r ps cs name t mode iv sv bv net bns bnb bn drop dw db fuel draws F F' radii input
    Hb Hs Hn Ht Hpos Hnet Hbs Hbb Hbn Hdr HF1 HF2 HF1' HF2' Hone Hsame call.
  destruct (C59_logits_partial_proof eps B V points sizes fs radii cs name t mode iv sv bv net bns bnb bn drop dw db fuel draws
    Hb ltac:(cbn; lia) Hs Hn Ht Hpos Hnet Hbs Hbb Hbn Hdr) as (data & Hch & Hcall). fold input in Hch, Hcall.
  pose proof (Hcall F HF1 HF2) as [_ E1]. pose proof (Hcall F' HF1' HF2') as [_ E2]. fold call in E1, E2.
  split; [eexists; exact E1|].
  assert (Hrows : rows_for V (snd (nth 0 data input)) F = rows_for V (snd (nth 0 data input)) F').
  { destruct data as [|lo data]; [inversion Hch|]. cbn [nth].
    pose proof (input_facts _ _ _ _ _ _ _ _ Hb) as Hil. destruct (ib_build _ _ _ _ _ _ _ _ Hb) as [I1 _ _ I4 _ _ I7 _].
    assert (Rp : (0 < r)%Q).
    { rewrite Forall_forall in I7. destruct (I7 [r]) as (_ & _ & X & _); [now left|]. now inversion X. }
    assert (ND : NoDup (snd lo)).
    { apply (last_single mode eps 3 radii r (fst input) (snd input) (lo :: data) input lo I1 Rp Hil I4 Hch eq_refl ltac:(lia)) with (k := 0); auto. }
    unfold rows_for. apply map_ext_in. intros i Hi. apply in_seq in Hi. rewrite rank_distinct by (auto; lia). rewrite Nat.add_0_r.
    destruct (Nat.lt_ge_cases (nth i (snd lo) 0) B) as [H|H]; [now apply Hsame|].
    apply (Nat.mul_le_mono_r _ _ V) in H. rewrite !nth_overflow by lia. reflexivity. }
  rewrite Hrows in E1. exact (eq_trans E1 (eq_sym E2)).
Qed.

(** C59. A name that is none of the three is rejected by the constructor. *)
Lemma C59_unknown_proof :
  forall feature_sizes r pool_radii conv_radii name mode iv sv bv,
    ~ (exists t, conv_named name t) ->
    mk_large feature_sizes (r :: pool_radii) conv_radii name mode iv sv bv = Err ValueError.
Proof.
  intros fs r rs cs name mode iv sv bv Hno. unfold mk_large. cbn [length seq build Nat.eqb].
  assert (E : forall i o v, script_layer name 1 16 32 15 i o v = Err ValueError).
  { intros i o v. unfold script_layer.
    destruct (String.eqb_spec name "MCConv") as [->|_]; [destruct Hno; exists TMC; left; auto|].
    destruct (String.eqb_spec name "PointConv") as [->|_]; [destruct Hno; exists TPT; right; left; auto|].
    destruct (String.eqb_spec name "KPConv") as [->|_]; [destruct Hno; exists TKP; right; right; auto|]. reflexivity. }
  rewrite E. reflexivity.
Qed.

(** ** Concrete cases: the clouds of the examples of C58. *)
Lemma ex59_batch : input_batch (1#1000) 2 3 ex58_points ex58_sizes [4#1]%Q "poisson disk" 3.
Proof.
  destruct (ex58_batch [1#1; 4#1]%Q (or_intror (or_introl eq_refl))) as [A1 A2 A3 A4 [I1 I2 I3 I4 I5 I6 I7 I8]].
  split; auto. cbn [map] in *. inversion I7; inversion I8; subst. split; auto.
Qed.
Lemma ex59_search : search_radii (1#1000) 2 (valid_rows ex58_sizes 3 ex58_points, ids_of_sizes ex58_sizes) 1 [4#1]%Q.
Proof.
  destruct (ex58_search 2 [1#1; 4#1]%Q (or_intror (or_introl eq_refl))) as [_ H]. inversion H; subst. split; auto.
Qed.
Lemma ex59_net fs rs mode iv sv bv : In (fs, rs) [([8; 8; 3], [4#1]%Q); ([4; 8; 8; 3], [1#1; 4#1]%Q)] ->
  exists net, mk_large fs rs rs "MCConv" mode iv sv bv = Ok net.
Proof. intros [E|[E|[]]]; injection E as <- <-; eexists; unfold mk_large, mk_block; cbn; reflexivity. Qed.

(** Two levels, the second block widens the features from 4 to 8. *)
Example C59_logits_partial_ex_proof :
  input_batch (1#1000) 2 3 ex58_points ex58_sizes [1#1; 4#1]%Q "poisson disk" 3 /\
  search_radii (1#1000) 2 (valid_rows ex58_sizes 3 ex58_points, ids_of_sizes ex58_sizes) 2 [1#1; 4#1]%Q /\
  forall iv sv bv dw db draws f, exists net logits,
    mk_large [4; 8; 8; 3] [1#1; 4#1]%Q [1#1; 4#1]%Q "MCConv" "poisson disk" iv sv bv = Ok net /\
    large_call GPU (1#1000) (find_neighbors_tf GPU) (compute_pdf_tf GPU) net (fun _ _ X => X) (fun _ _ X => X) (fun _ X => X) (fun _ X => X) dw db 3 draws 2
      (Padded [2] 3 ex58_points) (Feat 1 (inl (Padded [2] 3 (table 6 1 f)))) ex58_sizes = Some (Ok (Feat 3 (inr logits))) /\
    length logits = 2.
Proof.
  pose proof (ex58_batch _ (or_intror (or_introl eq_refl))) as Hb. pose proof (ex58_search _ _ (or_intror (or_introl eq_refl))) as Hs.
  split; [exact Hb|]. split; [exact Hs|]. intros iv sv bv dw db draws f.
  destruct (ex59_net _ _ "poisson disk" iv sv bv (or_intror (or_introl eq_refl))) as (net & En).
  assert (Hk : keeps_shape (fun X => X)) by (intros n c X HX; exact HX).
  assert (Hpos : forall i, i < 2 -> 4 <= nth i [4; 8; 8; 3] 0) by (intros [|[|i]] Hi; cbn; lia).
  destruct (C59_logits_partial_proof _ _ _ _ _ [4; 8; 8; 3] _ _ _ TMC _ iv sv bv net (fun _ _ X => X) (fun _ _ X => X) (fun _ X => X) (fun _ X => X) dw db _ draws
    Hb ltac:(cbn; lia) Hs (or_introl (conj eq_refl eq_refl)) ltac:(discriminate) Hpos En (fun _ _ => Hk) (fun _ _ => Hk) (fun _ => Hk) (fun _ => Hk)) as (data & _ & Hc).
  destruct (Hc (table 6 1 f) (proj1 (matrix_table 6 1 f)) (proj2 (matrix_table 6 1 f))) as [[HM _] E].
  exists net. eexists. split; [exact En|]. split; [exact E|]. exact HM.
Qed.

(** The same network with six rows. *)
Example C59_flat_features_partial_ex_proof :
  input_batch (1#1000) 2 3 ex58_points ex58_sizes [1#1; 4#1]%Q "poisson disk" 3 /\
  search_radii (1#1000) 2 (valid_rows ex58_sizes 3 ex58_points, ids_of_sizes ex58_sizes) 2 [1#1; 4#1]%Q /\
  forall iv sv bv dw db draws, exists net n, 2 <= n /\
    mk_large [4; 8; 8; 3] [1#1; 4#1]%Q [1#1; 4#1]%Q "MCConv" "poisson disk" iv sv bv = Ok net /\
    forall m f, n <= m -> exists logits,
    large_call GPU (1#1000) (find_neighbors_tf GPU) (compute_pdf_tf GPU) net (fun _ _ X => X) (fun _ _ X => X) (fun _ X => X) (fun _ X => X) dw db 3 draws 2
      (Padded [2] 3 ex58_points) (Feat 1 (inr (table m 1 f))) ex58_sizes = Some (Ok (Feat 3 (inr logits))) /\
    length logits = 2.
Proof.
  pose proof (ex58_batch _ (or_intror (or_introl eq_refl))) as Hb. pose proof (ex58_search _ _ (or_intror (or_introl eq_refl))) as Hs.
  split; [exact Hb|]. split; [exact Hs|]. intros iv sv bv dw db draws.
  destruct (ex59_net _ _ "poisson disk" iv sv bv (or_intror (or_introl eq_refl))) as (net & En).
  assert (Hk : keeps_shape (fun X => X)) by (intros n c X HX; exact HX).
  assert (Hpos : forall i, i < 2 -> 4 <= nth i [4; 8; 8; 3] 0) by (intros [|[|i]] Hi; cbn; lia).
  destruct (C59_flat_features_partial_proof _ _ _ _ _ [4; 8; 8; 3] _ _ _ TMC _ iv sv bv net (fun _ _ X => X) (fun _ _ X => X) (fun _ X => X) (fun _ X => X) dw db _ draws
    Hb ltac:(cbn; lia) Hs (or_introl (conj eq_refl eq_refl)) ltac:(discriminate) Hpos En (fun _ _ => Hk) (fun _ _ => Hk) (fun _ => Hk) (fun _ => Hk)) as (data & _ & Hc).
  exists net, (Nat.max 2 (length (snd (nth 0 data (valid_rows ex58_sizes 3 ex58_points, ids_of_sizes ex58_sizes))))). split; [apply Nat.le_max_l|]. split; [exact En|]. intros m f Hm.
  destruct (Hc (table m 1 f) ltac:(rewrite (proj1 (matrix_table m 1 f)); exact (Nat.le_trans _ _ _ (Nat.le_max_r _ _) Hm)) (proj2 (matrix_table m 1 f))) as [[HM _] E].
  eexists. split; [exact E|]. exact HM.
Qed.

(** One level with one point per element: the feature of the second point of the
    first element is ignored. *)
Example C59_features_refuted_ex_proof :
  input_batch (1#1000) 2 3 ex58_points ex58_sizes [4#1]%Q "poisson disk" 3 /\
  search_radii (1#1000) 2 (valid_rows ex58_sizes 3 ex58_points, ids_of_sizes ex58_sizes) 1 [4#1]%Q /\
  one_sample "poisson disk" (1#1000) (4#1) (valid_rows ex58_sizes 3 ex58_points, ids_of_sizes ex58_sizes) /\
  forall iv sv bv dw db draws x y, exists net,
    mk_large [8; 8; 3] [4#1]%Q [4#1]%Q "MCConv" "poisson disk" iv sv bv = Ok net /\
    let call := fun z => large_call GPU (1#1000) (find_neighbors_tf GPU) (compute_pdf_tf GPU) net (fun _ _ X => X) (fun _ _ X => X) (fun _ X => X) (fun _ X => X) dw db 3 draws 2
      (Padded [2] 3 ex58_points) (Feat 1 (inl (Padded [2] 3 [[1%R]; [z]; [1%R]; [1%R]; [1%R]; [1%R]]))) ex58_sizes in
    call x = call y.
Proof.
  pose proof ex59_batch as Hb. pose proof ex59_search as Hs.
  split; [exact Hb|]. split; [exact Hs|]. split; [exact ex58_one|]. intros iv sv bv dw db draws x y.
  destruct (ex59_net _ _ "poisson disk" iv sv bv (or_introl eq_refl)) as (net & En). exists net. split; [exact En|].
  assert (Hk : keeps_shape (fun X => X)) by (intros n c X HX; exact HX).
  assert (Hpos : forall i, i < length [4#1]%Q -> 4 <= nth i [8; 8; 3] 0) by (intros [|i] Hi; cbn in *; lia).
  assert (HF : forall z, Forall (fun row : list R => length row = 1) [[1%R]; [z]; [1%R]; [1%R]; [1%R]; [1%R]]) by (intros; repeat constructor).
  apply (C59_features_refuted_proof (1#1000) 2 3 ex58_points ex58_sizes [8; 8; 3] (4#1) [] [4#1]%Q "MCConv" TMC "poisson disk" iv sv bv net (fun _ _ X => X) (fun _ _ X => X) (fun _ X => X) (fun _ X => X) dw db 3 draws
    [[1%R]; [x]; [1%R]; [1%R]; [1%R]; [1%R]] [[1%R]; [y]; [1%R]; [1%R]; [1%R]; [1%R]]
    Hb Hs (or_introl (conj eq_refl eq_refl)) ltac:(discriminate) Hpos En (fun _ _ => Hk) (fun _ _ => Hk) (fun _ => Hk) (fun _ => Hk) eq_refl (HF x) eq_refl (HF y) ex58_one).
  intros [|[|b]] Hb'; [reflexivity|reflexivity|lia].
Qed.

Example C59_unknown_ex_proof :
  forall iv sv bv, mk_large [8; 8; 3] [1#1]%Q [1#1]%Q "KPconv" "poisson disk" iv sv bv = Err ValueError.
Proof. intros. reflexivity. Qed.
