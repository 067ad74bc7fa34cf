(** Proofs about the classification networks on a batch of one cloud without the
    CUDA operations (C58, C59). The statements are copied into
    PropertiesSingle.v. *)
From Coq Require Import String List Arith ZArith QArith Reals Qreals Lia Lra Bool Permutation.
From Verif Require Import Tensor TensorFacts Spec SpecText TextFacts PointCloud SpecCloud PointCloudFacts QFacts Grid SpecGrid GridFacts
  Neighbors SpecNeighbors NeighborFacts NeighborProofs Neighborhood NeighborhoodFacts NeighborhoodProofs
  Sampling SpecSampling SamplingFacts SamplingProofs Hierarchy SpecHierarchy HierarchyFacts HierarchyProofs LevelFacts CloudProofs Pdf SpecPdf PdfFacts PdfProofs
  RTensor RTensorFacts Kernels KernelProofs Layers SpecLayers LayerFacts LayerLink LayerProofs ConvProofs Blocks SpecBlocks BlockFacts BlockProofs
  Classifier SpecClassifier ClassifierFacts LastLevelFacts ClassifierProofs LargeFacts LargeProofs.
Import ListNotations.
Local Open Scope nat_scope.

Lemma single_ids n a : In a (ids_of_sizes [n]) -> a = 0.
Proof.
  unfold ids_of_sizes. cbn [length seq map concat nth]. rewrite app_nil_r. intros H. now apply repeat_spec in H.
Qed.
Lemma single_id n i : nth i (ids_of_sizes [n]) 0 = 0.
Proof.
  destruct (Nat.lt_ge_cases i (length (ids_of_sizes [n]))) as [H|H]; [|now rewrite nth_overflow by lia].
  apply (single_ids n). now apply nth_In.
Qed.

(** Poisson disk sampling of one cloud whose first sample is one point. *)
Lemma single_hierarchy eps V points n r r' radii mode fuel draws :
  let input := (valid_rows [n] V points, ids_of_sizes [n]) in
  length points = V -> Forall (fun x => length x = 3) points -> 1 <= n <= V -> means mode poisson_names ->
  buildable eps 3 (fst input) (snd input) 1 (map (fun r => [r]) (r :: r' :: radii)) fuel -> one_sample mode eps r input ->
  script_hierarchy GPU eps (find_neighbors_tf GPU) fuel draws 1 (Padded [1] V points) [n] (r :: r' :: radii) mode = Some (Err InvalidArgument).
Proof.
  intros input P1 P2 S1 Hm Hb Hone. cbn [fst snd] in Hb.
  assert (HD : describes (PN 3 (Padded [1] V points)) None (Some 1) (Some (ITensor [1] [n])) 3 (fst input) (snd input) (nprod [1])).
  { apply by_padding; cbn [nprod fold_right]; rewrite ?Nat.mul_1_r; auto; [cbn; lia|]. constructor; [lia|constructor]. }
  destruct (describes_init _ _ _ _ _ _ _ _ HD) as (p & Ep & [G F1 F2 F3 F4 F5] & _ & Hbs & _).
  assert (Hc : cloud GPU eps 3 (fst input) (snd input) 1 p).
  { eapply cloud_new; eauto.
    - pose proof (PointCloudFacts.g_len p G). congruence.
    - pose proof (PointCloudFacts.g_ids p G) as H. rewrite F3, F4 in H. exact H.
    - rewrite Forall_forall in P2 |- *. intros x Hx. apply P2. eapply valid_rows_in; exact Hx. }
  unfold script_hierarchy. cbn [length]. rewrite Ep.
  pose proof (C25_single_point_refuted_proof eps 3 _ _ 1 p [r] [r'] (map (fun r => [r]) radii) mode fuel draws Hc Hb Hm) as E.
  cbn [map] in E. rewrite map_map in E. cbn [map]. apply E.
  - intros a b Ha Hb'. cbn [snd input] in Ha, Hb'. apply single_ids in Ha, Hb'. congruence.
  - intros i j Hi Hj. destruct Hone as [[_ H]|[Ha _]].
    + apply H; auto. cbn [snd input]. now rewrite !single_id.
    + pose proof (sample_mode_poisson _ Hm). pose proof (sample_mode_average _ Ha). congruence.
Qed.

(** C58 and C59, one cloud, Poisson disk sampling with two or more levels, the
    first radius larger than the cloud: the call raises an exception. *)
Lemma C58_single_poisson_refuted_proof :
  forall eps V points n feature_sizes r r' sample_radii conv_radii name mode vars ow ob net bn drop dw db fuel draws features,
    let input := (valid_rows [n] V points, ids_of_sizes [n]) in
    length points = V -> Forall (fun x => length x = 3) points -> 1 <= n <= V -> means mode poisson_names ->
    buildable eps 3 (fst input) (snd input) 1 (map (fun r => [r]) (r :: r' :: sample_radii)) fuel -> one_sample mode eps r input ->
    mk_small feature_sizes (r :: r' :: sample_radii) conv_radii name mode vars ow ob = Ok net ->
    small_call GPU eps (find_neighbors_tf GPU) (compute_pdf_tf GPU) net bn drop dw db fuel draws 1
      (Padded [1] V points) features [n] = Some (Err InvalidArgument).
Proof.
  intros eps V points n fs r r' rs cs name mode vars ow ob net bn drop dw db fuel draws features input P1 P2 S1 Hm Hb Hone Hnet.
  pose proof (mk_small_inv _ _ _ _ _ _ _ _ _ Hnet) as (N1 & N2 & N3 & N4 & _). cbv zeta in *.
  unfold small_call. rewrite N2, N4. now rewrite (single_hierarchy eps V points n r r' rs mode fuel draws P1 P2 S1 Hm Hb Hone).
Qed.
Lemma C59_single_poisson_refuted_proof :
  forall eps V points n feature_sizes r r' pool_radii conv_radii name mode iv sv bv net bns bnb bn drop dw db fuel draws features,
    let input := (valid_rows [n] V points, ids_of_sizes [n]) in
    length points = V -> Forall (fun x => length x = 3) points -> 1 <= n <= V -> means mode poisson_names ->
    buildable eps 3 (fst input) (snd input) 1 (map (fun r => [r]) (r :: r' :: pool_radii)) fuel -> one_sample mode eps r input ->
    mk_large feature_sizes (r :: r' :: pool_radii) conv_radii name mode iv sv bv = Ok net ->
    large_call GPU eps (find_neighbors_tf GPU) (compute_pdf_tf GPU) net bns bnb bn drop dw db fuel draws 1
      (Padded [1] V points) features [n] = Some (Err InvalidArgument).
Proof.
  intros eps V points n fs r r' rs cs name mode iv sv bv net bns bnb bn drop dw db fuel draws features input P1 P2 S1 Hm Hb Hone Hnet.
  pose proof (mk_large_inv _ _ _ _ _ _ _ _ _ Hnet) as (N1 & N2 & N3 & N4 & _). cbv zeta in *.
  unfold large_call. rewrite N2, N4. now rewrite (single_hierarchy eps V points n r r' rs mode fuel draws P1 P2 S1 Hm Hb Hone).
Qed.

(** The first sample of one cloud inside the first radius is one point. *)
Lemma single_first eps V points sizes r radii mode fuel lo data :
  let input := (valid_rows sizes V points, ids_of_sizes sizes) in
  input_batch eps 1 V points sizes (r :: radii) mode fuel -> one_sample mode eps r input ->
  chain (next_level mode eps 3) (map (fun r => repeat r 3) (r :: radii)) (input :: lo :: data) -> Forall (fun b => b < 1) (snd lo) -> all_nonempty 1 (snd lo) ->
  length (snd lo) = 1.
Proof.
  intros input Hb Hone Hch HB HA.
  pose proof (input_facts _ _ _ _ _ _ _ _ Hb) as Hil. destruct (ib_build _ _ _ _ _ _ _ _ Hb) as [I1 _ _ I4 _ _ I7 _].
  assert (Rp : (0 < r)%Q).
  { rewrite Forall_forall in I7. destruct (I7 [r]) as (_ & _ & X & _); [now left|]. now inversion X. }
  assert (ND : NoDup (snd lo)).
  { apply (last_single mode eps 3 (r :: radii) r (fst input) (snd input) (lo :: data) input lo I1 Rp Hil I4 Hch eq_refl ltac:(lia)) with (k := 0); auto. }
  exact (distinct_ids 1 _ ND HB HA).
Qed.

(** C58 and C59, PointConv on one cloud whose first sample is one point: the call
    raises an exception. *)
Lemma C58_single_pointconv_refuted_proof :
  forall eps V points sizes feature_sizes r sample_radii conv_radii mode vars ow ob net bn drop dw db fuel draws features,
    let radii := r :: sample_radii in
    let input := (valid_rows sizes V points, ids_of_sizes sizes) in
    input_batch eps 1 V points sizes radii mode fuel -> search_radii eps 1 input (length radii) conv_radii -> one_sample mode eps r input ->
    mk_small feature_sizes radii conv_radii "PointConv" mode vars ow ob = Ok net ->
    length features = V -> Forall (fun row => length row = nth 0 feature_sizes 0) features ->
    small_call GPU eps (find_neighbors_tf GPU) (compute_pdf_tf GPU) net bn drop dw db fuel draws 1
      (Padded [1] V points) (Feat (nth 0 feature_sizes 0) (inl (Padded [1] V features))) sizes = Some (Err InvalidArgument).
Proof.
  intros eps V points sizes fs r rs cs mode vars ow ob net bn drop dw db fuel draws features radii input Hb [Hc1 Hc2] Hone Hnet Hf1 Hf2.
  destruct (script_hierarchy_ok eps 1 V points sizes radii mode fuel draws Hb) as (h & data & Eh & Hch & Hlen & Hlev). cbv zeta in *.
  fold input in Hch, Hlen, Hlev.
  pose proof (mk_small_inv _ _ _ _ _ _ _ _ _ Hnet) as (N1 & N2 & N3 & N4 & N5 & N6 & N7 & N8 & N9). cbv zeta in *.
  pose proof (levels_work _ _ _ _ _ _ _ _ _ _ Hb Hch Hc2) as Hwork. cbv zeta in Hwork. fold input in Hwork.
  destruct data as [|lo data]; [inversion Hch|].
  destruct (Hlev 0 input eq_refl) as (pin & Ep & L0). destruct (Hlev 1 lo eq_refl) as (pout & Eq & Lo).
  destruct cs as [|c0 cs]; [discriminate|].
  assert (H1 : length (snd lo) = 1).
  { apply (single_first eps V points sizes r rs mode fuel lo data); auto; [|apply Lo].
    exact (ic_ids _ _ _ _ _ _ _ (cloud_is _ _ _ _ _ _ _ (lc_cloud _ _ _ _ _ Lo))). }
  assert (Hg : given (Feat (nth 0 fs 0) (inl (Padded [1] V features))) pin (nth 0 fs 0) (rows_for V (snd input) features)).
  { apply (level_given eps 1 sizes); auto; [apply Hb| |lia]. eapply Forall_impl; [|apply (ib_sizes _ _ _ _ _ _ _ _ Hb)]. cbn. lia. }
  pose proof (Hwork 0 1 c0 input lo pin pout (or_introl eq_refl) eq_refl eq_refl L0 Lo) as W.
  destruct (N9 0 ltac:(cbn; lia)) as (c & Ec & El & _).
  destruct (item fs 0) as [a|ea] eqn:Ea; [|discriminate]. destruct (item fs (0 + 1)) as [b|eb] eqn:Eb; [|discriminate].
  apply item_inv in Ea. destruct Ea as [_ ->].
  pose proof (fun srt => point_conv_single eps 4 8 _ _ (vars 0) c c0 input lo pin pout _ _ srt El W H1 Hg) as Hconv.
  unfold small_call. rewrite N1, N2, N4. unfold radii in Eh |- *. rewrite Eh. f_equal. cbn [length].
  change (seq 0 (S (length rs))) with (0 :: seq 1 (length rs)). cbn [small_loop]. unfold conv_item. rewrite (item_ok _ _ _ Ec). cbn [bind]. unfold h_getitem.
  change (Z.of_nat 0 + 1)%Z with (Z.of_nat 1). rewrite !py_nth_nat, Ep, Eq. cbn [bind]. rewrite N3. rewrite (item_ok (c0 :: cs) 0 c0 eq_refl). cbn [bind].
  rewrite !Hconv. destruct (_ <? _)%Z; reflexivity.
Qed.
Lemma C59_single_pointconv_refuted_proof :
  forall eps V points sizes feature_sizes r pool_radii conv_radii mode iv sv bv net bns bnb bn drop dw db fuel draws features,
    let radii := r :: pool_radii in
    let input := (valid_rows sizes V points, ids_of_sizes sizes) in
    input_batch eps 1 V points sizes radii mode fuel -> search_radii eps 1 input (length radii) conv_radii -> one_sample mode eps r input ->
    mk_large feature_sizes radii conv_radii "PointConv" mode iv sv bv = Ok net ->
    length features = V -> Forall (fun row => length row = 1) features ->
    large_call GPU eps (find_neighbors_tf GPU) (compute_pdf_tf GPU) net bns bnb bn drop dw db fuel draws 1
      (Padded [1] V points) (Feat 1 (inl (Padded [1] V features))) sizes = Some (Err InvalidArgument).
Proof.
  intros eps V points sizes fs r rs cs mode iv sv bv net bns bnb bn drop dw db fuel draws features radii input Hb [Hc1 Hc2] Hone Hnet Hf1 Hf2.
  destruct (script_hierarchy_ok eps 1 V points sizes radii mode fuel draws Hb) as (h & data & Eh & Hch & Hlen & Hlev). cbv zeta in *.
  fold input in Hch, Hlen, Hlev.
  pose proof (mk_large_inv _ _ _ _ _ _ _ _ _ Hnet) as (N1 & N2 & N3 & N4 & N5 & N6 & N7 & N8 & N9 & N10). cbv zeta in *.
  pose proof (levels_work _ _ _ _ _ _ _ _ _ _ Hb Hch Hc2) as Hwork. cbv zeta in Hwork. fold input in Hwork.
  destruct data as [|lo data]; [inversion Hch|]. destruct (Hlev 1 lo eq_refl) as (pout & Eq & Lo).
  destruct cs as [|c0 cs]; [discriminate|].
  assert (H1 : length (snd lo) = 1).
  { apply (single_first eps V points sizes r rs mode fuel lo data); auto; [|apply Lo].
    exact (ic_ids _ _ _ _ _ _ _ (cloud_is _ _ _ _ _ _ _ (lc_cloud _ _ _ _ _ Lo))). }
  assert (Hg : given (Feat 1 (inl (Padded [1] V features))) pout 1 (rows_for V (snd lo) features)).
  { apply (level_given eps 1 sizes); auto; [apply Hb| |lia]. eapply Forall_impl; [|apply (ib_sizes _ _ _ _ _ _ _ _ Hb)]. cbn. lia. }
  pose proof (Hwork 1 1 c0 lo lo pout pout (or_introl eq_refl) eq_refl eq_refl Lo Lo) as W.
  destruct (N7 ltac:(cbn; lia)) as (ci & Eci & Mci). destruct (item fs 0) as [a|ea] eqn:Ea; [|discriminate].
  pose proof (point_conv_single eps 1 16 _ _ iv ci c0 lo lo pout pout _ _ false Mci W H1 Hg) as Hconv.
  unfold large_call. rewrite N1, N2, N4. unfold radii in Eh |- *. rewrite Eh. f_equal. cbn [length].
  change (seq 0 (S (length rs))) with (0 :: seq 1 (length rs)). cbn [large_loop Nat.eqb]. unfold h_getitem.
  change (Z.of_nat 0 + 1)%Z with (Z.of_nat 1). rewrite py_nth_nat, Eq. cbn [bind]. rewrite (item_ok _ _ _ Eci). cbn [bind]. rewrite N3. rewrite (item_ok (c0 :: cs) 0 c0 eq_refl). cbn [bind].
  rewrite (level_length eps 1 sizes lo pout Lo), (first_entries_all _ 1 V) by (first [rewrite Hf1; lia|lia|exact Hf1|apply nonempty_length, Lo]). rewrite Hconv. reflexivity.
Qed.

(** Points (0,0,0) and (2,0,0) and a padding row. *)
Definition exS_points : list point := [[0;0;0]; [2#1;0;0]; [9#1;9#1;9#1]]%Q.
Lemma exS_build r r' : In (r, r') [(1#1, 4#1); (4#1, 4#1)]%Q ->
  buildable (1#1000) 3 (valid_rows [2] 3 exS_points) (ids_of_sizes [2]) 1 (map (fun r => [r]) [r; r']) 3.
Proof.
  intros Hr.
  assert (G : Forall (good_sizes 3) [[1#1]; [4#1]]%Q).
  { constructor; [|constructor; [|constructor]]; (split; [discriminate|split; [cbn; lia|split]]);
      try (constructor; [reflexivity|constructor]); vm_compute; discriminate. }
  assert (C : Forall (fun l => few_cells (1#1000) 3 (filled_with_first 3 l) 1 (valid_rows [2] 3 exS_points, ids_of_sizes [2])) [[1#1]; [4#1]]%Q).
  { constructor; [|constructor; [|constructor]]; apply (few_cells_check _ _ _ _ _ _ [4;4;4]%Z); try reflexivity; vm_compute; discriminate. }
  inversion G as [|? ? G1 G2]. inversion G2 as [|? ? G3 _]. inversion C as [|? ? C1 C2]. inversion C2 as [|? ? C3 _]. subst.
  constructor; [reflexivity|vm_compute; discriminate|lia|discriminate|reflexivity|cbn; lia| |].
  - destruct Hr as [E|[E|[]]]; injection E as <- <-; cbn [map]; (constructor; [assumption|constructor; [assumption|constructor]]).
  - destruct Hr as [E|[E|[]]]; injection E as <- <-; cbn [map]; (constructor; [assumption|constructor; [assumption|constructor]]).
Qed.
Lemma exS_batch r r' : In (r, r') [(1#1, 4#1); (4#1, 4#1)]%Q -> input_batch (1#1000) 1 3 exS_points [2] [r; r'] "cell average" 3.
Proof.
  intros Hr. split.
  - split; [reflexivity|repeat constructor].
  - split; [reflexivity|]. constructor; [lia|constructor].
  - split; [lia|]. intros Hp. apply sample_mode_poisson in Hp. discriminate Hp.
  - right. apply means_average. cbn; tauto.
  - exact (exS_build r r' Hr).
Qed.
Lemma exS_search r r' : In (r, r') [(1#1, 4#1); (4#1, 4#1)]%Q -> search_radii (1#1000) 1 (valid_rows [2] 3 exS_points, ids_of_sizes [2]) 2 [r; r'].
Proof.
  assert (C1 : few_cells (1#1000) 3 (repeat (1#1)%Q 3) 1 (valid_rows [2] 3 exS_points, ids_of_sizes [2]))
    by (apply (few_cells_check _ _ _ _ _ _ [4;4;4]%Z); try reflexivity; vm_compute; discriminate).
  assert (C2 : few_cells (1#1000) 3 (repeat (4#1)%Q 3) 1 (valid_rows [2] 3 exS_points, ids_of_sizes [2]))
    by (apply (few_cells_check _ _ _ _ _ _ [4;4;4]%Z); try reflexivity; vm_compute; discriminate).
  intros [E|[E|[]]]; injection E as <- <-; (split; [reflexivity|]); repeat (constructor; [split; [reflexivity|assumption]|]); constructor.
Qed.
Lemma exS_one mode : In mode ["poisson disk"; "cell average"]%string -> one_sample mode (1#1000) (4#1) (valid_rows [2] 3 exS_points, ids_of_sizes [2]).
Proof.
  intros [<-|[<-|[]]].
  - left. split; [apply means_poisson; cbn; tauto|]. intros i j Hi Hj E. change (i < 2) in Hi. change (j < 2) in Hj.
    do 2 (destruct i as [|i]; [do 2 (destruct j as [|j]; [reflexivity|]); lia|]). lia.
  - right. split; [apply means_average; cbn; tauto|]. intros i j d Hi Hj Hd E. change (i < 2) in Hi. change (j < 2) in Hj.
    do 2 (destruct i as [|i]; [do 2 (destruct j as [|j]; [do 3 (destruct d as [|d]; [vm_compute; discriminate|]); lia|]); lia|]). lia.
Qed.
Lemma exS_small r r' name mode vars ow ob : In name ["MCConv"; "PointConv"]%string ->
  exists net, mk_small [1; 8; 8; 8; 3] [r; r'] [r; r'] name mode vars ow ob = Ok net.
Proof. intros [<-|[<-|[]]]; eexists; unfold mk_small; cbn; reflexivity. Qed.
Lemma exS_large r r' name mode iv sv bv : In name ["MCConv"; "PointConv"]%string ->
  exists net, mk_large [4; 8; 8; 3] [r; r'] [r; r'] name mode iv sv bv = Ok net.
Proof. intros [<-|[<-|[]]]; eexists; unfold mk_large, mk_block; cbn; reflexivity. Qed.

(** One cloud, cell average and MCConv: one row of logits. *)
Example C58_single_ex_proof :
  input_batch (1#1000) 1 3 exS_points [2] [1#1; 4#1]%Q "cell average" 3 /\
  forall vars ow ob dw db draws f, exists net logits,
    mk_small [1; 8; 8; 8; 3] [1#1; 4#1]%Q [1#1; 4#1]%Q "MCConv" "cell average" vars ow ob = Ok net /\
    small_call GPU (1#1000) (find_neighbors_tf GPU) (compute_pdf_tf GPU) net (fun _ X => X) (fun _ X => X) dw db 3 draws 1
      (Padded [1] 3 exS_points) (Feat 1 (inl (Padded [1] 3 (table 3 1 f)))) [2] = Some (Ok (Feat 3 (inr logits))) /\
    length logits = 1.
Proof.
  pose proof (exS_batch (1#1) (4#1) (or_introl eq_refl)) as Hb. pose proof (exS_search (1#1) (4#1) (or_introl eq_refl)) as Hs.
  split; [exact Hb|]. intros vars ow ob dw db draws f.
  destruct (exS_small (1#1) (4#1) "MCConv" "cell average" vars ow ob (or_introl eq_refl)) as (net & En).
  destruct (C58_logits_partial_proof _ _ _ _ _ [1; 8; 8; 8; 3] _ _ _ TMC _ vars ow ob net (fun _ X => X) (fun _ X => X) dw db _ draws (table 3 1 f)
    Hb ltac:(cbn; lia) Hs (or_introl (conj eq_refl eq_refl)) ltac:(discriminate) ltac:(repeat constructor) En ltac:(intros k n c X HX; exact HX) ltac:(intros k n c X HX; exact HX)
    ltac:(apply matrix_table) ltac:(apply matrix_table)) as (data & _ & [HM _] & _ & Hone & E).
  exists net. eexists. split; [exact En|]. split; [exact E|]. rewrite HM. apply (Hone (4#1)%Q eq_refl (exS_one _ (or_intror (or_introl eq_refl)))).
Qed.
Example C59_single_ex_proof :
  input_batch (1#1000) 1 3 exS_points [2] [1#1; 4#1]%Q "cell average" 3 /\
  forall iv sv bv dw db draws f, exists net logits,
    mk_large [4; 8; 8; 3] [1#1; 4#1]%Q [1#1; 4#1]%Q "MCConv" "cell average" iv sv bv = Ok net /\
    large_call GPU (1#1000) (find_neighbors_tf GPU) (compute_pdf_tf GPU) net (fun _ _ X => X) (fun _ _ X => X) (fun _ X => X) (fun _ X => X) dw db 3 draws 1
      (Padded [1] 3 exS_points) (Feat 1 (inl (Padded [1] 3 (table 3 1 f)))) [2] = Some (Ok (Feat 3 (inr logits))) /\
    length logits = 1.
Proof.
  pose proof (exS_batch (1#1) (4#1) (or_introl eq_refl)) as Hb. pose proof (exS_search (1#1) (4#1) (or_introl eq_refl)) as Hs.
  split; [exact Hb|]. intros iv sv bv dw db draws f.
  destruct (exS_large (1#1) (4#1) "MCConv" "cell average" iv sv bv (or_introl eq_refl)) as (net & En).
  assert (Hk : keeps_shape (fun X => X)) by (intros n c X HX; exact HX).
  assert (Hpos : forall i, i < 2 -> 4 <= nth i [4; 8; 8; 3] 0) by (intros [|[|i]] Hi; cbn; lia).
  destruct (C59_logits_partial_proof _ _ _ _ _ [4; 8; 8; 3] _ _ _ TMC _ iv sv bv net (fun _ _ X => X) (fun _ _ X => X) (fun _ X => X) (fun _ X => X) dw db _ draws
    Hb ltac:(cbn; lia) Hs (or_introl (conj eq_refl eq_refl)) ltac:(discriminate) Hpos En (fun _ _ => Hk) (fun _ _ => Hk) (fun _ => Hk) (fun _ => Hk)) as (data & _ & Hc).
  destruct (Hc (table 3 1 f) (proj1 (matrix_table 3 1 f)) (proj2 (matrix_table 3 1 f))) as [[HM _] E].
  exists net. eexists. split; [exact En|]. split; [exact E|]. exact HM.
Qed.

(** The same cloud with Poisson disk sampling and the radii 4, 4. *)
Example C58_single_poisson_refuted_ex_proof :
  forall vars ow ob dw db draws f, exists net,
    mk_small [1; 8; 8; 8; 3] [4#1; 4#1]%Q [4#1; 4#1]%Q "MCConv" "poisson disk" vars ow ob = Ok net /\
    small_call GPU (1#1000) (find_neighbors_tf GPU) (compute_pdf_tf GPU) net (fun _ X => X) (fun _ X => X) dw db 3 draws 1
      (Padded [1] 3 exS_points) (Feat 1 (inl (Padded [1] 3 (table 3 1 f)))) [2] = Some (Err InvalidArgument).
Proof.
  intros vars ow ob dw db draws f. destruct (exS_small (4#1) (4#1) "MCConv" "poisson disk" vars ow ob (or_introl eq_refl)) as (net & En).
  exists net. split; [exact En|].
  assert (H3 : Forall (fun x : point => length x = 3) exS_points) by (repeat constructor). assert (Hm : means "poisson disk" poisson_names) by (apply means_poisson; cbn; tauto).
  exact (C58_single_poisson_refuted_proof _ 3 exS_points 2 _ (4#1)%Q (4#1)%Q [] _ _ _ vars ow ob net (fun _ X => X) (fun _ X => X) dw db 3 draws _ eq_refl H3 ltac:(lia) Hm
    (exS_build (4#1) (4#1) (or_intror (or_introl eq_refl))) (exS_one _ (or_introl eq_refl)) En).
Qed.
Example C59_single_poisson_refuted_ex_proof :
  forall iv sv bv dw db draws f, exists net,
    mk_large [4; 8; 8; 3] [4#1; 4#1]%Q [4#1; 4#1]%Q "MCConv" "poisson disk" iv sv bv = Ok net /\
    large_call GPU (1#1000) (find_neighbors_tf GPU) (compute_pdf_tf GPU) net (fun _ _ X => X) (fun _ _ X => X) (fun _ X => X) (fun _ X => X) dw db 3 draws 1
      (Padded [1] 3 exS_points) (Feat 1 (inl (Padded [1] 3 (table 3 1 f)))) [2] = Some (Err InvalidArgument).
Proof.
  intros iv sv bv dw db draws f. destruct (exS_large (4#1) (4#1) "MCConv" "poisson disk" iv sv bv (or_introl eq_refl)) as (net & En).
  exists net. split; [exact En|].
  assert (H3 : Forall (fun x : point => length x = 3) exS_points) by (repeat constructor). assert (Hm : means "poisson disk" poisson_names) by (apply means_poisson; cbn; tauto).
  exact (C59_single_poisson_refuted_proof _ 3 exS_points 2 _ (4#1)%Q (4#1)%Q [] _ _ _ iv sv bv net (fun _ _ X => X) (fun _ _ X => X) (fun _ X => X) (fun _ X => X) dw db 3 draws _ eq_refl H3 ltac:(lia) Hm
    (exS_build (4#1) (4#1) (or_intror (or_introl eq_refl))) (exS_one _ (or_introl eq_refl)) En).
Qed.

(** The same cloud with PointConv, cell average and the radii 4, 4. *)
Example C58_single_pointconv_refuted_ex_proof :
  forall vars ow ob dw db draws f, exists net,
    mk_small [1; 8; 8; 8; 3] [4#1; 4#1]%Q [4#1; 4#1]%Q "PointConv" "cell average" vars ow ob = Ok net /\
    small_call GPU (1#1000) (find_neighbors_tf GPU) (compute_pdf_tf GPU) net (fun _ X => X) (fun _ X => X) dw db 3 draws 1
      (Padded [1] 3 exS_points) (Feat 1 (inl (Padded [1] 3 (table 3 1 f)))) [2] = Some (Err InvalidArgument).
Proof.
  intros vars ow ob dw db draws f. destruct (exS_small (4#1) (4#1) "PointConv" "cell average" vars ow ob (or_intror (or_introl eq_refl))) as (net & En).
  exists net. split; [exact En|].
  exact (C58_single_pointconv_refuted_proof _ 3 exS_points [2] _ (4#1)%Q [4#1]%Q _ _ vars ow ob net (fun _ X => X) (fun _ X => X) dw db 3 draws (table 3 1 f)
    (exS_batch (4#1) (4#1) (or_intror (or_introl eq_refl))) (exS_search (4#1) (4#1) (or_intror (or_introl eq_refl))) (exS_one _ (or_intror (or_introl eq_refl))) En
    (proj1 (matrix_table 3 1 f)) (proj2 (matrix_table 3 1 f))).
Qed.
Example C59_single_pointconv_refuted_ex_proof :
  forall iv sv bv dw db draws f, exists net,
    mk_large [4; 8; 8; 3] [4#1; 4#1]%Q [4#1; 4#1]%Q "PointConv" "cell average" iv sv bv = Ok net /\
    large_call GPU (1#1000) (find_neighbors_tf GPU) (compute_pdf_tf GPU) net (fun _ _ X => X) (fun _ _ X => X) (fun _ X => X) (fun _ X => X) dw db 3 draws 1
      (Padded [1] 3 exS_points) (Feat 1 (inl (Padded [1] 3 (table 3 1 f)))) [2] = Some (Err InvalidArgument).
Proof.
  intros iv sv bv dw db draws f. destruct (exS_large (4#1) (4#1) "PointConv" "cell average" iv sv bv (or_intror (or_introl eq_refl))) as (net & En).
  exists net. split; [exact En|].
  exact (C59_single_pointconv_refuted_proof _ 3 exS_points [2] _ (4#1)%Q [4#1]%Q _ _ iv sv bv net (fun _ _ X => X) (fun _ _ X => X) (fun _ X => X) (fun _ X => X) dw db 3 draws (table 3 1 f)
    (exS_batch (4#1) (4#1) (or_intror (or_introl eq_refl))) (exS_search (4#1) (4#1) (or_intror (or_introl eq_refl))) (exS_one _ (or_intror (or_introl eq_refl))) En
    (proj1 (matrix_table 3 1 f)) (proj2 (matrix_table 3 1 f))).
Qed.

(** The same cloud with Poisson disk sampling: the radii 1, 4, 4 leave 2, 2 and 1
    points and the third sampling fails; the radius 4 alone works. *)
Lemma exS_padded l : In l [[1#1; 4#1; 4#1]; [4#1]]%Q -> padded_input (1#1000) 1 3 exS_points [2] l "poisson disk" 3.
Proof.
  intros Hl. destruct (exS_build (1#1) (4#1) (or_introl eq_refl)) as [B1 B2 B3 B4 B5 B6 B7 B8]. cbn [map] in B7, B8. rewrite Forall_forall in B7, B8.
  assert (HI : forall x, In x (map (fun r => [r]) l) -> In x [[1#1]; [4#1]]%Q) by (destruct Hl as [<-|[<-|[]]]; intros x Hx; cbn in *; tauto).
  split; [split; [reflexivity|repeat constructor]|split; [reflexivity|constructor; [lia|constructor]]|lia|left; apply means_poisson; cbn; tauto|].
  constructor; auto; apply Forall_forall; auto.
Qed.
Example C58_every_batch_partial_ex_proof :
  padded_input (1#1000) 1 3 exS_points [2] [1#1; 4#1; 4#1]%Q "poisson disk" 3 /\ padded_input (1#1000) 1 3 exS_points [2] [4#1]%Q "poisson disk" 3 /\
  (forall vars ow ob dw db f, exists net,
    mk_small [1; 8; 8; 8; 8; 3] [1#1; 4#1; 4#1]%Q [4#1; 4#1; 4#1]%Q "MCConv" "poisson disk" vars ow ob = Ok net /\
    small_call GPU (1#1000) (find_neighbors_tf GPU) (compute_pdf_tf GPU) net (fun _ X => X) (fun _ X => X) dw db 3 (fun _ k => k) 1
      (Padded [1] 3 exS_points) (Feat 1 (inl (Padded [1] 3 (table 3 1 f)))) [2] = Some (Err InvalidArgument)) /\
  forall vars ow ob dw db draws f, exists net logits,
    mk_small [1; 8; 8; 3] [4#1]%Q [4#1]%Q "MCConv" "poisson disk" vars ow ob = Ok net /\
    small_call GPU (1#1000) (find_neighbors_tf GPU) (compute_pdf_tf GPU) net (fun _ X => X) (fun _ X => X) dw db 3 draws 1
      (Padded [1] 3 exS_points) (Feat 1 (inl (Padded [1] 3 (table 3 1 f)))) [2] = Some (Ok (Feat 3 (inr logits))) /\
    length logits = 1.
Proof.
  split; [apply exS_padded; cbn; tauto|]. split; [apply exS_padded; cbn; tauto|]. split.
  - intros vars ow ob dw db f.
    destruct (mk_small [1; 8; 8; 8; 8; 3] [1#1; 4#1; 4#1]%Q [4#1; 4#1; 4#1]%Q "MCConv" "poisson disk" vars ow ob) as [net|e] eqn:En; [|discriminate En].
    exists net. split; [reflexivity|]. pose proof (mk_small_inv _ _ _ _ _ _ _ _ _ En) as (_ & N2 & _ & N4 & _). cbv zeta in *.
    unfold small_call. rewrite N2, N4.
    assert (Eh : script_hierarchy GPU (1#1000) (find_neighbors_tf GPU) 3 (fun _ k => k) 1 (Padded [1] 3 exS_points) [2] [1#1; 4#1; 4#1]%Q "poisson disk" = Some (Err InvalidArgument))
      by (vm_compute; reflexivity).
    rewrite Eh. reflexivity.
  - intros vars ow ob dw db draws f. pose proof (exS_padded [4#1]%Q ltac:(cbn; tauto)) as Hb.
    assert (Hs : search_radii (1#1000) 1 (valid_rows [2] 3 exS_points, ids_of_sizes [2]) 1 [4#1]%Q).
    { destruct (exS_search (4#1) (4#1) (or_intror (or_introl eq_refl))) as [_ X]. split; [reflexivity|]. inversion X; subst. constructor; [assumption|constructor]. }
    destruct (mk_small [1; 8; 8; 3] [4#1]%Q [4#1]%Q "MCConv" "poisson disk" vars ow ob) as [net|e] eqn:En; [|discriminate En].
    destruct (C58_every_batch_partial_proof _ _ _ _ _ [1; 8; 8; 3] _ _ _ TMC _ vars ow ob net (fun _ X => X) (fun _ X => X) dw db _ draws (table 3 1 f)
      Hb ltac:(cbn; lia) Hs (or_introl (conj eq_refl eq_refl)) ltac:(repeat constructor) En ltac:(intros k n c X HX; exact HX) ltac:(intros k n c X HX; exact HX)
      ltac:(apply matrix_table) ltac:(apply matrix_table)) as [(k & data & _ & Hcase & Hch & H1 & _)|(data & _ & _ & _ & [HM _] & _ & Hone & E)].
    + exfalso. destruct Hcase as [[_ Hk]|[X _]]; [|discriminate X]. cbn [length] in Hk. assert (k = 0) by lia. subst k. cbn [firstn] in Hch.
      inversion Hch; subst. cbn in H1. discriminate H1.
    + exists net. eexists. split; [reflexivity|]. split; [exact E|]. rewrite HM. apply (Hone (4#1)%Q eq_refl (exS_one _ (or_introl eq_refl))).
Qed.
Example C59_every_batch_partial_ex_proof :
  padded_input (1#1000) 1 3 exS_points [2] [1#1; 4#1; 4#1]%Q "poisson disk" 3 /\ padded_input (1#1000) 1 3 exS_points [2] [4#1]%Q "poisson disk" 3 /\
  (forall iv sv bv dw db f, exists net,
    mk_large [4; 8; 8; 8; 3] [1#1; 4#1; 4#1]%Q [4#1; 4#1; 4#1]%Q "MCConv" "poisson disk" iv sv bv = Ok net /\
    large_call GPU (1#1000) (find_neighbors_tf GPU) (compute_pdf_tf GPU) net (fun _ _ X => X) (fun _ _ X => X) (fun _ X => X) (fun _ X => X) dw db 3 (fun _ k => k) 1
      (Padded [1] 3 exS_points) (Feat 1 (inl (Padded [1] 3 (table 3 1 f)))) [2] = Some (Err InvalidArgument)) /\
  forall iv sv bv dw db draws f, exists net logits,
    mk_large [4; 8; 3] [4#1]%Q [4#1]%Q "MCConv" "poisson disk" iv sv bv = Ok net /\
    large_call GPU (1#1000) (find_neighbors_tf GPU) (compute_pdf_tf GPU) net (fun _ _ X => X) (fun _ _ X => X) (fun _ X => X) (fun _ X => X) dw db 3 draws 1
      (Padded [1] 3 exS_points) (Feat 1 (inl (Padded [1] 3 (table 3 1 f)))) [2] = Some (Ok (Feat 3 (inr logits))) /\
    length logits = 1.
Proof.
  split; [apply exS_padded; cbn; tauto|]. split; [apply exS_padded; cbn; tauto|]. split.
  - intros iv sv bv dw db f.
    destruct (mk_large [4; 8; 8; 8; 3] [1#1; 4#1; 4#1]%Q [4#1; 4#1; 4#1]%Q "MCConv" "poisson disk" iv sv bv) as [net|e] eqn:En; [|discriminate En].
    exists net. split; [reflexivity|]. pose proof (mk_large_inv _ _ _ _ _ _ _ _ _ En) as (_ & N2 & _ & N4 & _). cbv zeta in *.
    unfold large_call. rewrite N2, N4.
    assert (Eh : script_hierarchy GPU (1#1000) (find_neighbors_tf GPU) 3 (fun _ k => k) 1 (Padded [1] 3 exS_points) [2] [1#1; 4#1; 4#1]%Q "poisson disk" = Some (Err InvalidArgument))
      by (vm_compute; reflexivity).
    rewrite Eh. reflexivity.
  - intros iv sv bv dw db draws f. pose proof (exS_padded [4#1]%Q ltac:(cbn; tauto)) as Hb.
    assert (Hs : search_radii (1#1000) 1 (valid_rows [2] 3 exS_points, ids_of_sizes [2]) 1 [4#1]%Q).
    { destruct (exS_search (4#1) (4#1) (or_intror (or_introl eq_refl))) as [_ X]. split; [reflexivity|]. inversion X; subst. constructor; [assumption|constructor]. }
    destruct (mk_large [4; 8; 3] [4#1]%Q [4#1]%Q "MCConv" "poisson disk" iv sv bv) as [net|e] eqn:En; [|discriminate En].
    assert (Hk : keeps_shape (fun X => X)) by (intros n c X HX; exact HX).
    assert (Hpos : forall i, i < 1 -> 4 <= nth i [4; 8; 3] 0) by (intros [|i] Hi; cbn; lia).
    destruct (C59_every_batch_partial_proof _ _ _ _ _ [4; 8; 3] _ _ _ TMC _ iv sv bv net (fun _ _ X => X) (fun _ _ X => X) (fun _ X => X) (fun _ X => X) dw db _ draws
      Hb ltac:(cbn; lia) Hs (or_introl (conj eq_refl eq_refl)) Hpos En (fun _ _ => Hk) (fun _ _ => Hk) (fun _ => Hk) (fun _ => Hk))
      as [(k & data & _ & Hcase & Hch & H1 & _)|(data & _ & _ & _ & Hc)].
    + exfalso. destruct Hcase as [[_ Hk']|[X _]]; [|discriminate X]. cbn [length] in Hk'. assert (k = 0) by lia. subst k. cbn [firstn] in Hch.
      inversion Hch; subst. cbn in H1. discriminate H1.
    + destruct (Hc (table 3 1 f) (proj1 (matrix_table 3 1 f)) (proj2 (matrix_table 3 1 f))) as [[HM _] E].
      exists net. eexists. split; [reflexivity|]. split; [exact E|]. exact HM.
Qed.
