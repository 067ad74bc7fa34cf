(** Proofs that the prediction for a cloud depends on that cloud only, for every
    convolution and every number of clouds (C60). The statements are copied
    verbatim into PropertiesPredictionEvery.v. *)
From Coq Require Import String List Arith ZArith QArith Reals Qreals Lia Bool Permutation.
From Verif Require Import Tensor TensorFacts Spec SpecText TextFacts PointCloud SpecCloud PointCloudFacts QFacts Grid SpecGrid GridFacts
  Neighbors SpecNeighbors Sampling SpecSampling SamplingFacts SamplingProofs Hierarchy SpecHierarchy HierarchyFacts HierarchyProofs Pdf SpecPdf
  RTensor RTensorFacts Kernels Layers SpecLayers LayerFacts LayerLink LayerProofs
  Blocks SpecBlocks BlockFacts BlockProofs BatchProofs Classifier SpecClassifier ClassifierFacts LastLevelFacts ClassifierProofs LargeFacts LargeProofs
  SpecMatch MatchFacts MatchLevel MatchNet PredictionProofs SingleProofs.
Import ListNotations.
Local Open Scope nat_scope.

(** A level with a single point stops only PointConv on one cloud, if the points
    are sampled by cell average. *)
Lemma only_pointconv eps B V points sizes radii mode fuel k L xs data t :
  input_batch eps B V points sizes radii mode fuel -> means mode average_names ->
  means mode poisson_names /\ k < L \/ t = TPT /\ 0 < k ->
  chain (next_level mode eps 3) xs ((valid_rows sizes V points, ids_of_sizes sizes) :: data) ->
  length (snd (last data (valid_rows sizes V points, ids_of_sizes sizes))) = 1 -> t = TPT /\ B = 1.
Proof.
  intros Hb Hm Hcase Hch H1. destruct Hcase as [[Hp _]|[Ht _]].
  { pose proof (sample_mode_poisson _ Hp). pose proof (sample_mode_average _ Hm). congruence. }
  split; [exact Ht|]. destruct (ib_sizes _ _ _ _ _ _ _ _ Hb) as [S1 S2]. destruct (ib_clouds _ _ _ _ _ _ _ _ Hb) as [HB _].
  destruct (Nat.eq_dec B 1) as [->|Hne]; [reflexivity|]. exfalso.
  exact (single_no_elements _ _ _ _ _ _ B Hch (input_facts _ _ _ _ _ _ _ _ Hb)
    (ids_nonempty sizes B S1 (Forall_impl _ (fun n Hn => proj1 Hn) S2)) ltac:(lia) H1).
Qed.

(** C60, the network of modelnet40_small.py: every convolution and every number of clouds. The
    two calls give the cloud the same logits, or the convolution is PointConv and
    a batch of one cloud raises. *)
Lemma C60_small_every_batch_proof :
  forall eps feature_sizes sample_radii conv_radii name t mode vars ow ob net bn drop dw db
    B V points sizes features fuel draws e B2 V2 points2 sizes2 features2 fuel2 draws2 e2 s tr,
    let L := length sample_radii in
    let chans := fun i => nth i feature_sizes 0 in
    let u2 := nth (length feature_sizes - 1) feature_sizes 0 in
    let input := (valid_rows sizes V points, ids_of_sizes sizes) in
    let input2 := (valid_rows sizes2 V2 points2, ids_of_sizes sizes2) in
    means mode average_names -> 0 < L -> conv_named name t -> Forall (fun c => 0 < c) feature_sizes ->
    mk_small feature_sizes sample_radii conv_radii name mode vars ow ob = Ok net ->
    (forall k, rowwise (bn k)) -> (forall k, rowwise (drop k)) ->
    input_batch eps B V points sizes sample_radii mode fuel -> search_radii eps B input L conv_radii ->
    length features = B * V -> Forall (fun row => length row = chans 0) features ->
    input_batch eps B2 V2 points2 sizes2 sample_radii mode fuel2 -> search_radii eps B2 input2 L conv_radii ->
    length features2 = B2 * V2 -> Forall (fun row => length row = chans 0) features2 ->
    (forall r, nth_error sample_radii (L - 1) = Some r -> one_sample mode eps r input /\ one_sample mode eps r input2) ->
    e < B -> e2 < B2 -> same_cloud 3 e V sizes points e2 V2 sizes2 points2 s tr ->
    same_rows e V (nth e sizes 0) features e2 V2 features2 s ->
    (t = TPT /\ (B = 1 /\
      small_call GPU eps (find_neighbors_tf GPU) (compute_pdf_tf GPU) net bn drop dw db fuel draws B
        (Padded [B] V points) (Feat (chans 0) (inl (Padded [B] V features))) sizes = Some (Err InvalidArgument) \/
      B2 = 1 /\
      small_call GPU eps (find_neighbors_tf GPU) (compute_pdf_tf GPU) net bn drop dw db fuel2 draws2 B2
        (Padded [B2] V2 points2) (Feat (chans 0) (inl (Padded [B2] V2 features2))) sizes2 = Some (Err InvalidArgument))) \/
    exists logits logits2,
      small_call GPU eps (find_neighbors_tf GPU) (compute_pdf_tf GPU) net bn drop dw db fuel draws B
        (Padded [B] V points) (Feat (chans 0) (inl (Padded [B] V features))) sizes = Some (Ok (Feat u2 (inr logits))) /\
      small_call GPU eps (find_neighbors_tf GPU) (compute_pdf_tf GPU) net bn drop dw db fuel2 draws2 B2
        (Padded [B2] V2 points2) (Feat (chans 0) (inl (Padded [B2] V2 features2))) sizes2 = Some (Ok (Feat u2 (inr logits2))) /\
      matrix B u2 logits /\ matrix B2 u2 logits2 /\ nth e logits [] = nth e2 logits2 [].
Proof.
  intros eps fs rs cs name t mode vars ow ob net bn drop dw db B V points sizes F fuel draws e B2 V2 points2 sizes2 F2 fuel2 draws2 e2 s tr
    L chans u2 input input2 Hm HL Hn Hpos Hnet Hbn Hdr Hb Hs Hf1 Hf2 Hb2 Hs2 Hf1' Hf2' Hone He He2 Hcl Hrw.
  destruct (C58_every_batch_partial_proof eps B V points sizes fs rs cs name t mode vars ow ob net bn drop dw db fuel draws F
    (input_padded _ _ _ _ _ _ _ _ Hb) HL Hs Hn Hpos Hnet (fun k => rowwise_keeps _ (Hbn k)) (fun k => rowwise_keeps _ (Hdr k)) Hf1 Hf2) as [(k & data & _ & Hk & Hch & H1 & E1)|(data & Hch & _ & _ & HM & HA & H1 & E1)].
  { destruct (only_pointconv _ _ _ _ _ _ _ _ _ _ _ _ _ Hb Hm Hk Hch H1) as [A1 A2]. left. split; [exact A1|]. left. split; [exact A2|exact E1]. }
  destruct (C58_every_batch_partial_proof eps B2 V2 points2 sizes2 fs rs cs name t mode vars ow ob net bn drop dw db fuel2 draws2 F2
    (input_padded _ _ _ _ _ _ _ _ Hb2) HL Hs2 Hn Hpos Hnet (fun k => rowwise_keeps _ (Hbn k)) (fun k => rowwise_keeps _ (Hdr k)) Hf1' Hf2') as [(k & data2 & _ & Hk & Hch2 & H2 & E2)|(data2 & Hch2 & _ & _ & HM2 & HA2 & H2 & E2)].
  { destruct (only_pointconv _ _ _ _ _ _ _ _ _ _ _ _ _ Hb2 Hm Hk Hch2 H2) as [A1 A2]. left. split; [exact A1|]. right. split; [exact A2|exact E2]. }
  right.
  cbv zeta in *. fold L chans u2 in E1, E2, HM, HM2, H1, H2. fold input in Hch, HM, HA, H1, E1. fold input2 in Hch2, HM2, HA2, H2, E2.
  destruct (nth_error rs (L - 1)) as [r|] eqn:Er; [|apply nth_error_None in Er; lia]. destruct (Hone r eq_refl) as [O1 O2].
  destruct (H1 r eq_refl O1) as [N1 K1]. destruct (H2 r eq_refl O2) as [N2 K2]. clear H1 H2.
  eexists. eexists. split; [exact E1|]. split; [exact E2|]. rewrite N1 in HM. rewrite N2 in HM2. rewrite N1, N2.
  split; [exact HM|]. split; [exact HM2|]. clear E1 E2 HM HM2.
  destruct (ib_points _ _ _ _ _ _ _ _ Hb) as [P1 _]. destruct (ib_sizes _ _ _ _ _ _ _ _ Hb) as [S1 S1'].
  destruct (ib_points _ _ _ _ _ _ _ _ Hb2) as [P2 _]. destruct (ib_sizes _ _ _ _ _ _ _ _ Hb2) as [S2 S2'].
  apply (small_core eps fs rs cs mode (fun i r up lo X => script_formula t 4 8 (vars i) (chans i) (chans (S i)) r up lo X) ow ob bn drop dw db B V points sizes F e B2 V2 points2 sizes2 F2 e2 s tr data data2 _ u2
    Hm HL (proj1 Hs) Hbn Hdr); auto.
  - intros. apply formula_matrix.
  - intros i r0 up lo up2 lo2 ps qs X X2 A1 A2 A3. now apply (script_match _ _ _ _ _ _ _ tr e e2 up lo up2 lo2 ps qs).
Qed.

(** C60, the network of modelnet40.py: every convolution and every number of clouds. The
    two calls give the cloud the same logits, or the convolution is PointConv and
    a batch of one cloud raises. *)
Lemma C60_large_every_batch_proof :
  forall eps feature_sizes pool_radii conv_radii name t mode iv sv bv net bns bnb bn drop dw db
    B V points sizes features fuel draws e B2 V2 points2 sizes2 features2 fuel2 draws2 e2 s tr x,
    let L := length pool_radii in
    let chans := fun i => nth i feature_sizes 0 in
    let u2 := nth (length feature_sizes - 1) feature_sizes 0 in
    let input := (valid_rows sizes V points, ids_of_sizes sizes) in
    let input2 := (valid_rows sizes2 V2 points2, ids_of_sizes sizes2) in
    means mode average_names -> 0 < L -> conv_named name t -> (forall i, i < L -> 4 <= chans i) ->
    mk_large feature_sizes pool_radii conv_radii name mode iv sv bv = Ok net ->
    (forall i k, rowwise (bns i k)) -> (forall i k, rowwise (bnb i k)) -> (forall k, rowwise (bn k)) -> (forall k, rowwise (drop k)) ->
    input_batch eps B V points sizes pool_radii mode fuel -> search_radii eps B input L conv_radii ->
    length features = B * V -> Forall (fun row => length row = 1) features ->
    input_batch eps B2 V2 points2 sizes2 pool_radii mode fuel2 -> search_radii eps B2 input2 L conv_radii ->
    length features2 = B2 * V2 -> Forall (fun row => length row = 1) features2 ->
    e < B -> e2 < B2 -> same_cloud 3 e V sizes points e2 V2 sizes2 points2 s tr ->
    (forall k, k < nth e sizes 0 -> nth (e * V + k) features [] = [x] /\ nth (e2 * V2 + k) features2 [] = [x]) ->
    (t = TPT /\ (B = 1 /\
      large_call GPU eps (find_neighbors_tf GPU) (compute_pdf_tf GPU) net bns bnb bn drop dw db fuel draws B
        (Padded [B] V points) (Feat 1 (inl (Padded [B] V features))) sizes = Some (Err InvalidArgument) \/
      B2 = 1 /\
      large_call GPU eps (find_neighbors_tf GPU) (compute_pdf_tf GPU) net bns bnb bn drop dw db fuel2 draws2 B2
        (Padded [B2] V2 points2) (Feat 1 (inl (Padded [B2] V2 features2))) sizes2 = Some (Err InvalidArgument))) \/
    exists logits logits2,
      large_call GPU eps (find_neighbors_tf GPU) (compute_pdf_tf GPU) net bns bnb bn drop dw db fuel draws B
        (Padded [B] V points) (Feat 1 (inl (Padded [B] V features))) sizes = Some (Ok (Feat u2 (inr logits))) /\
      large_call GPU eps (find_neighbors_tf GPU) (compute_pdf_tf GPU) net bns bnb bn drop dw db fuel2 draws2 B2
        (Padded [B2] V2 points2) (Feat 1 (inl (Padded [B2] V2 features2))) sizes2 = Some (Ok (Feat u2 (inr logits2))) /\
      matrix B u2 logits /\ matrix B2 u2 logits2 /\ nth e logits [] = nth e2 logits2 [].
Proof.
  intros eps fs rs cs name t mode iv sv bv net bns bnb bn drop dw db B V points sizes F fuel draws e B2 V2 points2 sizes2 F2 fuel2 draws2 e2 s tr x
    L chans u2 input input2 Hm HL Hn Hpos Hnet Hbs Hbb Hbn Hdr Hb Hs Hf1 Hf2 Hb2 Hs2 Hf1' Hf2' He He2 Hcl Hx.
  destruct (C59_every_batch_partial_proof eps B V points sizes fs rs cs name t mode iv sv bv net bns bnb bn drop dw db fuel draws
    (input_padded _ _ _ _ _ _ _ _ Hb) HL Hs Hn Hpos Hnet (fun i k => rowwise_keeps _ (Hbs i k)) (fun i k => rowwise_keeps _ (Hbb i k)) (fun k => rowwise_keeps _ (Hbn k)) (fun k => rowwise_keeps _ (Hdr k)))
    as [(k & data & _ & Hk & Hch & H1 & E1)|(data & Hch & _ & _ & Hcall)].
  { destruct (only_pointconv _ _ _ _ _ _ _ _ _ _ _ _ _ Hb Hm Hk Hch H1) as [A1 A2]. left. split; [exact A1|]. left. split; [exact A2|exact (E1 F Hf1 Hf2)]. }
  destruct (C59_every_batch_partial_proof eps B2 V2 points2 sizes2 fs rs cs name t mode iv sv bv net bns bnb bn drop dw db fuel2 draws2
    (input_padded _ _ _ _ _ _ _ _ Hb2) HL Hs2 Hn Hpos Hnet (fun i k => rowwise_keeps _ (Hbs i k)) (fun i k => rowwise_keeps _ (Hbb i k)) (fun k => rowwise_keeps _ (Hbn k)) (fun k => rowwise_keeps _ (Hdr k)))
    as [(k & data2 & _ & Hk & Hch2 & H2 & E2)|(data2 & Hch2 & _ & _ & Hcall2)].
  { destruct (only_pointconv _ _ _ _ _ _ _ _ _ _ _ _ _ Hb2 Hm Hk Hch2 H2) as [A1 A2]. left. split; [exact A1|]. right. split; [exact A2|exact (E2 F2 Hf1' Hf2')]. }
  right.
  destruct (Hcall F Hf1 Hf2) as [HM E1]. destruct (Hcall2 F2 Hf1' Hf2') as [HM2 E2]. clear Hcall Hcall2.
  cbv zeta in *. fold L chans u2 in E1, E2, HM, HM2. fold input in Hch, HM, E1. fold input2 in Hch2, HM2, E2.
  eexists. eexists. split; [exact E1|]. split; [exact E2|]. split; [exact HM|]. split; [exact HM2|]. clear E1 E2 HM HM2.
  destruct (ib_points _ _ _ _ _ _ _ _ Hb) as [P1 _]. destruct (ib_sizes _ _ _ _ _ _ _ _ Hb) as [S1 S1'].
  destruct (ib_points _ _ _ _ _ _ _ _ Hb2) as [P2 _]. destruct (ib_sizes _ _ _ _ _ _ _ _ Hb2) as [S2 S2'].
  apply (large_core eps fs rs cs mode (fun v cin cout r up lo X => script_formula t 1 16 v cin cout r up lo X) iv sv bv bns bnb bn drop dw db B V points sizes F e B2 V2 points2 sizes2 F2 e2 s tr x data data2 _ u2
    Hm HL (proj1 Hs) Hbs Hbb Hbn Hdr); auto.
  - intros. apply formula_matrix.
  - intros v cin cout r up lo up2 lo2 ps qs' X X2 A1 A2 A3. now apply (script_match _ _ _ _ _ _ _ tr e e2 up lo up2 lo2 ps qs').
Qed.

(** C60 fails for PointConv: a cloud on its own raises, the same cloud in any
    batch of two or more gets logits. *)
Lemma C60_alone_refuted_proof :
  forall eps feature_sizes sample_radii conv_radii mode vars ow ob net bn drop dw db
    V points sizes features fuel draws B2 V2 points2 sizes2 features2 fuel2 draws2,
    let L := length sample_radii in
    let chans := fun i => nth i feature_sizes 0 in
    let u2 := nth (length feature_sizes - 1) feature_sizes 0 in
    let input := (valid_rows sizes V points, ids_of_sizes sizes) in
    let input2 := (valid_rows sizes2 V2 points2, ids_of_sizes sizes2) in
    means mode average_names -> 0 < L -> Forall (fun c => 0 < c) feature_sizes ->
    mk_small feature_sizes sample_radii conv_radii "PointConv" mode vars ow ob = Ok net ->
    (forall k, keeps_shape (bn k)) -> (forall k, keeps_shape (drop k)) ->
    input_batch eps 1 V points sizes sample_radii mode fuel -> search_radii eps 1 input L conv_radii ->
    length features = V -> Forall (fun row => length row = chans 0) features ->
    2 <= B2 -> input_batch eps B2 V2 points2 sizes2 sample_radii mode fuel2 -> search_radii eps B2 input2 L conv_radii ->
    length features2 = B2 * V2 -> Forall (fun row => length row = chans 0) features2 ->
    (forall r, nth_error sample_radii (L - 1) = Some r -> one_sample mode eps r input /\ one_sample mode eps r input2) ->
    small_call GPU eps (find_neighbors_tf GPU) (compute_pdf_tf GPU) net bn drop dw db fuel draws 1
      (Padded [1] V points) (Feat (chans 0) (inl (Padded [1] V features))) sizes = Some (Err InvalidArgument) /\
    exists logits2, matrix B2 u2 logits2 /\
      small_call GPU eps (find_neighbors_tf GPU) (compute_pdf_tf GPU) net bn drop dw db fuel2 draws2 B2
        (Padded [B2] V2 points2) (Feat (chans 0) (inl (Padded [B2] V2 features2))) sizes2 = Some (Ok (Feat u2 (inr logits2))).
Proof.
  intros eps fs rs cs mode vars ow ob net bn drop dw db V points sizes F fuel draws B2 V2 points2 sizes2 F2 fuel2 draws2
    L chans u2 input input2 Hm HL Hpos Hnet Hbn Hdr Hb Hs Hf1 Hf2 HB2 Hb2 Hs2 Hf1' Hf2' Hone.
  assert (Hn : conv_named "PointConv" TPT) by (right; left; split; reflexivity).
  destruct (nth_error rs (L - 1)) as [r|] eqn:Er; [|apply nth_error_None in Er; lia]. destruct (Hone r eq_refl) as [O1 O2]. split.
  - destruct (C58_every_batch_partial_proof eps 1 V points sizes fs rs cs "PointConv" TPT mode vars ow ob net bn drop dw db fuel draws F
      (input_padded _ _ _ _ _ _ _ _ Hb) HL Hs Hn Hpos Hnet Hbn Hdr ltac:(lia) Hf2) as [(k & data & _ & _ & _ & _ & E1)|(data & Hch & _ & H2 & _ & _ & H1 & _)]; [exact E1|].
    exfalso. cbv zeta in H1. destruct (H1 r Er O1) as [N1 _]. assert (Hl : length (input :: data) = S L).
    { pose proof (chain_length _ _ _ Hch) as Y. rewrite map_length in Y. exact Y. }
    cbn [length] in Hl. assert (X : nth_error (input :: data) L = Some (last data input)).
    { pose proof (last_nth data input) as Y. assert (El : length data = L) by (injection Hl; auto). exact (eq_trans (f_equal (nth_error (input :: data)) (eq_sym El)) Y). }
    pose proof (H2 eq_refl L _ HL X) as Y. unfold input in Y. rewrite N1 in Y. lia.
  - destruct (C58_logits_partial_proof eps B2 V2 points2 sizes2 fs rs cs "PointConv" TPT mode vars ow ob net bn drop dw db fuel2 draws2 F2
      Hb2 HL Hs2 Hn (fun _ => HB2) Hpos Hnet Hbn Hdr Hf1' Hf2') as (data2 & Hch2 & HM2 & HA2 & H2 & E2).
    cbv zeta in H2. destruct (H2 r Er O2) as [N2 _]. eexists. split; [|exact E2]. rewrite N2 in HM2 |- *. exact HM2.
Qed.

(** ** Concrete cases: the first cloud of the examples of C58 on its own and in
    the batch of two clouds; all networks with MCConv, then PointConv. *)
Lemma exE_same : same_cloud 3 0 3 [2] exS_points 0 3 ex58_sizes ex58_points [0; 1] (fun _ => 0%Q).
Proof.
  split; [reflexivity|]. split; [apply Permutation_refl|]. intros k d Hk Hd. change (k < 2) in Hk.
  do 2 (destruct k as [|k]; [do 3 (destruct d as [|d]; [reflexivity|]); lia|]). lia.
Qed.
Lemma exE_one : forall r, nth_error [1#1; 4#1]%Q (2 - 1) = Some r ->
  one_sample "cell average" (1#1000) r (valid_rows [2] 3 exS_points, ids_of_sizes [2]) /\
  one_sample "cell average" (1#1000) r (valid_rows ex58_sizes 3 ex58_points, ids_of_sizes ex58_sizes).
Proof.
  intros r Er. injection Er as <-. split; [exact (exS_one _ (or_intror (or_introl eq_refl)))|exact (proj1 ex60_one)].
Qed.
Definition exE_features (f g : nat -> R) : mat := [[f 0]; [f 1]; [0%R]; [g 0]; [g 1]; [g 2]].

Example C60_small_every_batch_ex_proof :
  same_cloud 3 0 3 [2] exS_points 0 3 ex58_sizes ex58_points [0; 1] (fun _ => 0%Q) /\
  forall vars ow ob dw db draws draws2 f g, exists net logits logits2,
    mk_small [1; 8; 8; 8; 3] [1#1; 4#1]%Q [1#1; 4#1]%Q "MCConv" "cell average" vars ow ob = Ok net /\
    small_call GPU (1#1000) (find_neighbors_tf GPU) (compute_pdf_tf GPU) net (fun _ X => X) (fun _ X => X) dw db 3 draws 1
      (Padded [1] 3 exS_points) (Feat 1 (inl (Padded [1] 3 [[f 0]; [f 1]; [g 5]]))) [2] = Some (Ok (Feat 3 (inr logits))) /\
    small_call GPU (1#1000) (find_neighbors_tf GPU) (compute_pdf_tf GPU) net (fun _ X => X) (fun _ X => X) dw db 3 draws2 2
      (Padded [2] 3 ex58_points) (Feat 1 (inl (Padded [2] 3 (exE_features f g)))) ex58_sizes = Some (Ok (Feat 3 (inr logits2))) /\
    length logits = 1 /\ nth 0 logits [] = nth 0 logits2 [].
Proof.
  split; [exact exE_same|]. intros vars ow ob dw db draws draws2 f g.
  destruct (ex60_batches _ (or_intror (or_introl eq_refl))) as [Hb2 _]. pose proof (ex58_search _ _ (or_intror (or_introl eq_refl))) as Hs2.
  pose proof (exS_batch (1#1) (4#1) (or_introl eq_refl)) as Hb. pose proof (exS_search (1#1) (4#1) (or_introl eq_refl)) as Hs.
  destruct (ex58_net _ _ "cell average" vars ow ob (or_intror (or_introl eq_refl))) as (net & En).
  assert (Hm : means "cell average" average_names) by (apply means_average; cbn; tauto).
  destruct (C60_small_every_batch_proof (1#1000) [1; 8; 8; 8; 3] [1#1; 4#1]%Q [1#1; 4#1]%Q "MCConv" TMC "cell average" vars ow ob net (fun _ X => X) (fun _ X => X) dw db
    1 3 exS_points [2] [[f 0]; [f 1]; [g 5]] 3 draws 0 2 3 ex58_points ex58_sizes (exE_features f g) 3 draws2 0 [0; 1] (fun _ => 0%Q)
    Hm ltac:(cbn; lia) (or_introl (conj eq_refl eq_refl)) ltac:(repeat constructor) En (fun _ => rowwise_id) (fun _ => rowwise_id)
    Hb Hs eq_refl ltac:(repeat constructor) Hb2 Hs2 eq_refl ltac:(repeat constructor) exE_one ltac:(lia) ltac:(lia) exE_same)
    as [[X _]|(l & l2 & E1 & E2 & [M1 _] & _ & E)].
  - intros [|[|k]] Hk; [reflexivity|reflexivity|cbn in Hk; lia].
  - discriminate X.
  - exists net, l, l2. auto.
Qed.

Example C60_large_every_batch_ex_proof :
  same_cloud 3 0 3 [2] exS_points 0 3 ex58_sizes ex58_points [0; 1] (fun _ => 0%Q) /\
  forall iv sv bv dw db draws draws2 g, exists net logits logits2,
    mk_large [4; 8; 8; 3] [1#1; 4#1]%Q [1#1; 4#1]%Q "MCConv" "cell average" iv sv bv = Ok net /\
    large_call GPU (1#1000) (find_neighbors_tf GPU) (compute_pdf_tf GPU) net (fun _ _ X => X) (fun _ _ X => X) (fun _ X => X) (fun _ X => X) dw db 3 draws 1
      (Padded [1] 3 exS_points) (Feat 1 (inl (Padded [1] 3 [[1%R]; [1%R]; [g 5]]))) [2] = Some (Ok (Feat 3 (inr logits))) /\
    large_call GPU (1#1000) (find_neighbors_tf GPU) (compute_pdf_tf GPU) net (fun _ _ X => X) (fun _ _ X => X) (fun _ X => X) (fun _ X => X) dw db 3 draws2 2
      (Padded [2] 3 ex58_points) (Feat 1 (inl (Padded [2] 3 (exE_features (fun _ => 1%R) g)))) ex58_sizes = Some (Ok (Feat 3 (inr logits2))) /\
    length logits = 1 /\ nth 0 logits [] = nth 0 logits2 [].
Proof.
  split; [exact exE_same|]. intros iv sv bv dw db draws draws2 g.
  destruct (ex60_batches _ (or_intror (or_introl eq_refl))) as [Hb2 _]. pose proof (ex58_search _ _ (or_intror (or_introl eq_refl))) as Hs2.
  pose proof (exS_batch (1#1) (4#1) (or_introl eq_refl)) as Hb. pose proof (exS_search (1#1) (4#1) (or_introl eq_refl)) as Hs.
  destruct (ex59_net _ _ "cell average" iv sv bv (or_intror (or_introl eq_refl))) as (net & En).
  assert (Hm : means "cell average" average_names) by (apply means_average; cbn; tauto).
  assert (Hpos : forall i, i < 2 -> 4 <= nth i [4; 8; 8; 3] 0) by (intros [|[|i]] Hi; cbn; lia).
  destruct (C60_large_every_batch_proof (1#1000) [4; 8; 8; 3] [1#1; 4#1]%Q [1#1; 4#1]%Q "MCConv" TMC "cell average" iv sv bv net (fun _ _ X => X) (fun _ _ X => X) (fun _ X => X) (fun _ X => X) dw db
    1 3 exS_points [2] [[1%R]; [1%R]; [g 5]] 3 draws 0 2 3 ex58_points ex58_sizes (exE_features (fun _ => 1%R) g) 3 draws2 0 [0; 1] (fun _ => 0%Q) 1%R
    Hm ltac:(cbn; lia) (or_introl (conj eq_refl eq_refl)) Hpos En (fun _ _ => rowwise_id) (fun _ _ => rowwise_id) (fun _ => rowwise_id) (fun _ => rowwise_id)
    Hb Hs eq_refl ltac:(repeat constructor) Hb2 Hs2 eq_refl ltac:(repeat constructor) ltac:(lia) ltac:(lia) exE_same)
    as [[X _]|(l & l2 & E1 & E2 & [M1 _] & _ & E)].
  - intros [|[|k]] Hk; [split; reflexivity|split; reflexivity|cbn in Hk; lia].
  - discriminate X.
  - exists net, l, l2. auto.
Qed.

Example C60_alone_refuted_ex_proof :
  same_cloud 3 0 3 [2] exS_points 0 3 ex58_sizes ex58_points [0; 1] (fun _ => 0%Q) /\
  forall vars ow ob dw db draws draws2 f g, exists net logits2,
    mk_small [1; 8; 8; 8; 3] [1#1; 4#1]%Q [1#1; 4#1]%Q "PointConv" "cell average" vars ow ob = Ok net /\
    small_call GPU (1#1000) (find_neighbors_tf GPU) (compute_pdf_tf GPU) net (fun _ X => X) (fun _ X => X) dw db 3 draws 1
      (Padded [1] 3 exS_points) (Feat 1 (inl (Padded [1] 3 [[f 0]; [f 1]; [g 5]]))) [2] = Some (Err InvalidArgument) /\
    small_call GPU (1#1000) (find_neighbors_tf GPU) (compute_pdf_tf GPU) net (fun _ X => X) (fun _ X => X) dw db 3 draws2 2
      (Padded [2] 3 ex58_points) (Feat 1 (inl (Padded [2] 3 (exE_features f g)))) ex58_sizes = Some (Ok (Feat 3 (inr logits2))) /\
    length logits2 = 2.
Proof.
  split; [exact exE_same|]. intros vars ow ob dw db draws draws2 f g.
  destruct (ex60_batches _ (or_intror (or_introl eq_refl))) as [Hb2 _]. pose proof (ex58_search _ _ (or_intror (or_introl eq_refl))) as Hs2.
  pose proof (exS_batch (1#1) (4#1) (or_introl eq_refl)) as Hb. pose proof (exS_search (1#1) (4#1) (or_introl eq_refl)) as Hs.
  destruct (exS_small (1#1) (4#1) "PointConv" "cell average" vars ow ob (or_intror (or_introl eq_refl))) as (net & En).
  assert (Hm : means "cell average" average_names) by (apply means_average; cbn; tauto).
  assert (Hk : keeps_shape (fun X => X)) by (intros n c X HX; exact HX).
  destruct (C60_alone_refuted_proof (1#1000) [1; 8; 8; 8; 3] [1#1; 4#1]%Q [1#1; 4#1]%Q "cell average" vars ow ob net (fun _ X => X) (fun _ X => X) dw db
    3 exS_points [2] [[f 0]; [f 1]; [g 5]] 3 draws 2 3 ex58_points ex58_sizes (exE_features f g) 3 draws2
    Hm ltac:(cbn; lia) ltac:(repeat constructor) En (fun _ => Hk) (fun _ => Hk)
    Hb Hs eq_refl ltac:(repeat constructor) ltac:(lia) Hb2 Hs2 eq_refl ltac:(repeat constructor) exE_one)
    as [E1 (l & [M1 _] & E2)].
  exists net, l. auto.
Qed.
