(** Proofs about the evaluation on the test set with the CUDA operations (C67).
    The statements are copied into PropertiesCudaTraining.v. *)
From Coq Require Import String List Arith ZArith NArith QArith Reals Qreals Lia Lra Bool Permutation.
From Verif Require Import GpuBasis GpuPdf Cuda GpuGrid Tensor TensorFacts Spec SpecText TextFacts PointCloud SpecCloud PointCloudFacts QFacts Grid SpecGrid GridFacts
  Neighbors SpecNeighbors NeighborFacts NeighborProofs Neighborhood NeighborhoodFacts NeighborhoodProofs
  Sampling SpecSampling SamplingFacts SamplingProofs Hierarchy SpecHierarchy HierarchyFacts HierarchyProofs LevelFacts CloudProofs Pdf SpecPdf PdfFacts PdfProofs
  RTensor RTensorFacts Kernels KernelProofs Layers SpecLayers LayerFacts LayerLink LayerProofs ConvProofs Blocks SpecBlocks BlockFacts BlockProofs
  Classifier SpecClassifier ClassifierFacts LastLevelFacts ClassifierProofs LargeFacts LargeProofs SpecMatch MatchFacts MatchLevel MatchNet PredictionProofs
  GpuNeighbors GpuSampling CudaLayers SpecCudaLayers CudaLayerProofs CudaNetwork SpecCudaNetwork CudaHierarchyProofs CudaNetFacts CudaNetProofs CudaLargeProofs
  CudaPredictionProofs SampleFacts Generator SpecGenerator GeneratorProofs Training SpecTraining TrainingFacts TrainingProofs CudaTraining.
Import ListNotations.
Local Open Scope nat_scope.

(** ** The loop over the batches *)
Section Loop.
  Context (loss : list R -> nat -> R) (network : nat -> padded point -> feat -> list nat -> (feat -> Prop) -> Prop).
  Context (B samples u N : nat) (cloud : nat -> list point) (label : nat -> nat) (scores : nat -> list R).
  Hypothesis Hnet : forall i js (P : feat -> Prop), length js = B -> Forall (fun j => j < N) js -> P (Feat u (inr (map scores js))) ->
    network i (Padded [B] samples (concat (map cloud js))) (Feat 1 (inl (Padded [B] samples (repeat [1%R] (B * samples))))) (repeat samples B) P.
  Lemma evaluate_gpu_ok (P : R * R -> Prop) chunks : forall ds i l a, Forall2 (batch_of B samples N cloud label) chunks ds ->
    P (metric_result (Metric (total l + rsum (map (fun js => (rsum (map (cost loss label scores) js) / INR B)%R) chunks)) (values l + length chunks)),
       metric_result (Metric (total a + INR (length (filter (hit label scores) (concat chunks)))) (values a + length (concat chunks)))) ->
    evaluate_gpu loss network B samples i ds l a P.
  Proof using Hnet.
    induction chunks as [|js chunks IH]; intros ds i l a H HP; inversion H as [|? d ? r Hd H']; subst; cbn [evaluate_gpu].
    - destruct l, a. cbn in HP. rewrite !Nat.add_0_r, !Rplus_0_r in HP. exact HP.
    - destruct Hd as (L & F & S & O). assert (Pd : points_of B samples d = Padded [B] samples (concat (map cloud js))).
      { unfold points_of. rewrite S, map_map. reflexivity. }
      assert (Q1 : features_of B samples d = Feat 1 (inl (Padded [B] samples (repeat [1%R] (B * samples))))).
      { unfold features_of. rewrite O, concat_repeat, map_repeat'. cbn [map]. replace (Q2R 1) with 1%R; [reflexivity|]. unfold Q2R. cbn. lra. }
      rewrite Pd, Q1. apply Hnet; auto. cbn [frows]. unfold batch_loss, update_accuracy. rewrite S, !map_length, Nat.eqb_refl, L.
      rewrite !map_map. cbn [snd]. rewrite combine_maps, map_map, filter_map_length. cbn [fst snd].
      apply (IH r (Datatypes.S i) _ _ H'). unfold update_mean. cbn [total values map concat rsum fold_right length] in HP |- *.
      rewrite filter_app, !app_length, plus_INR in HP.
      match goal with |- P ?x => match type of HP with P ?y => replace x with y; [exact HP|] end end. f_equal.
      + do 2 f_equal; [|lia]. unfold cost, rsum. lra.
      + do 2 f_equal; [|lia]. change (fun x : nat => argmax (softmax (scores x)) =? label x) with (hit label scores). lra.
  Qed.
End Loop.

Lemma validation_gpu_ok loss (network : nat -> padded point -> feat -> list nat -> (feat -> Prop) -> Prop) points ls B samples u g draws (scores : nat -> list R) (P : R * R -> Prop) :
  B <> 0 -> length points mod B = 0 -> length ls = length points -> Forall (fun m => samples <= length m) points ->
  in_use points ls B false samples g ->
  1 <= u -> (forall j, j < length points -> length (scores j) = u) ->
  (forall i js (P : feat -> Prop), length js = B -> Forall (fun j => j < length points) js -> P (Feat u (inr (map scores js))) ->
    network i (Padded [B] samples (concat (map (fun j => firstn samples (nth j points [])) js)))
      (Feat 1 (inl (Padded [B] samples (repeat [1%R] (B * samples))))) (repeat samples B) P) ->
  (forall accuracy, fraction (length points) (fun j => predicted (scores j) (nth j ls 0)) accuracy ->
    P (mean (map (fun j => loss (probabilities (scores j)) (nth j ls 0)) (seq 0 (length points))), accuracy)) ->
  validation_gpu loss network g samples draws P.
Proof.
  intros HB HM HL HS HG Hu Hlen Hnet HP.
  destruct (shown points ls B samples g draws HB HL HS HG) as (ds & js & chunks & E & E3 & ND & Ljs & Fjs & Pjs & LC & C & F2). specialize (Pjs HM).
  unfold validation_gpu. rewrite E, E3. eapply (evaluate_gpu_ok loss network B samples u (length points)); [exact Hnet|exact F2|].
  unfold new_metric. cbn [total values Nat.add]. rewrite (final_metrics loss (fun j => nth j ls 0) scores B (length points / B) js chunks HB Ljs LC C).
  assert (Em : mean (map (cost loss (fun j => nth j ls 0) scores) js) = mean (map (fun j => loss (probabilities (scores j)) (nth j ls 0)) (seq 0 (length points)))).
  { unfold mean. rewrite !map_length, (Permutation_length Pjs). f_equal.
    fold (rsum (map (cost loss (fun j => nth j ls 0) scores) js)). rewrite (rs_perm _ _ (Permutation_map _ Pjs)). unfold rsum. f_equal. apply map_ext. intros j. unfold cost. now rewrite softmax_probabilities. }
  rewrite Em. apply HP. apply fraction_ok; [exact Pjs|]. intros j Hj. unfold hit. apply argmax_hit. intros X. specialize (Hlen j Hj). rewrite X in Hlen. cbn in Hlen. lia.
Qed.

(** ** The scores *)
Lemma finite_choice {A} (a : A) (Rel : nat -> A -> Prop) n : (forall j, j < n -> exists x, Rel j x) -> exists f, forall j, j < n -> Rel j (f j).
Proof.
  induction n as [|n IH]; intros H; [exists (fun _ => a); intros j Hj; lia|].
  destruct IH as (f & Hf); [intros j Hj; apply H; lia|]. destruct (H n ltac:(lia)) as (x & Hx).
  exists (fun j => if j =? n then x else f j). intros j Hj. destruct (Nat.eqb_spec j n) as [->|Hne]; [exact Hx|apply Hf; lia].
Qed.
(** A test set without conditions on the cells. *)
Lemma test_any eps B samples clouds radii : test_set eps 1 samples clouds radii -> 1 <= B -> (Z.of_nat B * Z.of_nat samples < 2 ^ 31 - 1)%Z ->
  test_set eps B samples clouds [].
Proof. intros [T1 T2 T3 T4 T5 T6] HB HC. constructor; auto. Qed.
Lemma cuda_ready eps B samples clouds radii js limit pool mode : test_set eps B samples clouds radii -> length js = B -> Forall (fun j => j < length clouds) js ->
  Forall (fun r => (0 < r)%Q) pool -> means mode average_names -> B * samples <= limit ->
  cuda_input limit eps B samples (batch_points samples clouds js) (repeat samples B) pool mode.
Proof.
  intros HT Hjs Fjs HP HM HLim. destruct (batch_ready eps B samples clouds radii js HT Hjs Fjs [] mode (B * samples) ltac:(intros x []) HM (le_n _)) as [A1 A2 A3 A4 _].
  constructor; auto; [apply HT|apply HT|]. clear - HLim. assert (X : fold_right Nat.add 0 (repeat samples B) = B * samples); [|lia].
  clear HLim. induction B as [|B IH]; cbn; [reflexivity|]. now rewrite IH.
Qed.
Lemma ones_rows n c : c = 1 -> Forall (fun row : list R => length row = c) (repeat [1%R] n).
Proof. intros ->. apply Forall_forall. intros x Hx. apply repeat_spec in Hx. now rewrite Hx. Qed.
Lemma rows_equal (u : nat) (scores : nat -> list R) js B logits : length js = B -> matrix B u logits ->
  (forall e, e < B -> nth e logits [] = scores (nth e js 0)) -> logits = map scores js.
Proof.
  intros Hjs (L & _) H. apply (nth_ext _ _ [] []); [rewrite map_length; lia|]. intros e He. rewrite L in He.
  rewrite (nth_indep (map scores js) [] (scores 0)) by (rewrite map_length; lia). rewrite map_nth. now apply H.
Qed.

Section Reference.
  Context (eps : Q) (samples : nat) (clouds : list (list point)) (rs : list Q) (mode : string).
  Hypothesis HM : means mode average_names.
  Hypothesis HT : test_set eps 1 samples clouds rs.
  (** The levels of the cloud [j] alone. *)
  Lemma reference : exists ref : nat -> list SpecHierarchy.batch, forall j, j < length clouds ->
    chain (next_level mode eps 3) (map (fun r => repeat r 3) rs) (batch_input 1 samples clouds [j] :: ref j) /\
    forall i b, nth_error (batch_input 1 samples clouds [j] :: ref j) i = Some b -> Forall (fun e => e < 1) (snd b) /\ all_nonempty 1 (snd b).
  Proof using HM HT.
    apply (finite_choice (@nil SpecHierarchy.batch) (fun j (ref : list SpecHierarchy.batch) =>
      chain (next_level mode eps 3) (map (fun r => repeat r 3) rs) (batch_input 1 samples clouds [j] :: ref) /\
      forall i b, nth_error (batch_input 1 samples clouds [j] :: ref) i = Some b -> Forall (fun e => e < 1) (snd b) /\ all_nonempty 1 (snd b))).
    intros j Hj. assert (F1 : Forall (fun j => j < length clouds) [j]) by (constructor; [exact Hj|constructor]).
    destruct (script_hierarchy_ok eps 1 samples _ _ rs mode (1 * samples) (fun _ _ => 0)
      (batch_ready eps 1 samples clouds rs [j] HT eq_refl F1 rs mode (1 * samples) (incl_refl _) HM (le_n _))) as (h & data & _ & Hch & _ & Hl).
    exists data. split; [exact Hch|]. intros i b Hb. destruct (Hl i b Hb) as (q & _ & Lb). split; [|apply Lb].
    exact (ic_ids _ _ _ _ _ _ _ (cloud_is _ _ _ _ _ _ _ (lc_cloud _ _ _ _ _ Lb))).
  Qed.
End Reference.
Lemma last_item (l : list Q) n r : nth_error l n = Some r -> n = length l - 1 -> last l 0%Q = r.
Proof.
  intros H ->. apply (nth_error_nth _ _ 0%Q) in H. rewrite <- H. clear. induction l as [|x [|y l] IH]; [reflexivity|reflexivity|].
  change (last (x :: y :: l) 0%Q) with (last (y :: l) 0%Q). rewrite IH. cbn. now rewrite Nat.sub_0_r.
Qed.

(** C67. The small network with the CUDA operations (inference, cell average
    sampling, one feature per point): every model of the test set has scores such
    that the network returns them for that model in every batch, on every device
    and for every schedule, and the validation returns the mean loss and the
    fraction of correct predictions over the whole test set. *)
Lemma C67_small_proof :
  forall eps feature_sizes sample_radii conv_radii name t mode vars ow ob net bn drop dw db samples clouds,
    let L := length sample_radii in
    let u := nth (length feature_sizes - 1) feature_sizes 0 in
    means mode average_names -> sample_radii <> [] -> length conv_radii = L -> Forall (fun r => (0 < r)%Q) conv_radii -> conv_named name t ->
    (forall i, i < L -> cuda_channels (nth i feature_sizes 0)) -> 0 < nth L feature_sizes 0 -> nth 0 feature_sizes 0 = 1 -> 1 <= u ->
    mk_small feature_sizes sample_radii conv_radii name mode vars ow ob = Ok net ->
    (forall k, rowwise (bn k)) -> (forall k, rowwise (drop k)) ->
    test_set eps 1 samples clouds sample_radii -> (forall d, d < 3 -> extent eps samples clouds (last sample_radii 0%Q) d 1) ->
    exists scores : nat -> list R, forall active sactive pactive bactive warp time B ls g loss gdraws,
      device_samples active sactive pactive bactive warp ->
      1 <= B -> (Z.of_nat B * Z.of_nat samples < 2 ^ 31 - 1)%Z -> B * samples <= scan_limit active warp ->
      length ls = length clouds -> length clouds mod B = 0 -> in_use clouds ls B false samples g ->
      (forall i js, length js = B -> Forall (fun j => j < length clouds) js ->
         small_call_gpu active sactive pactive bactive warp (time i) eps net bn drop dw db B
           (Padded [B] samples (concat (map (fun j => firstn samples (nth j clouds [])) js)))
           (Feat 1 (inl (Padded [B] samples (repeat [1%R] (B * samples))))) (repeat samples B)
           (fun out => out = Feat u (inr (map scores js)))) /\
      validation_gpu loss (fun i => small_call_gpu active sactive pactive bactive warp (time i) eps net bn drop dw db B) g samples gdraws
        (fun result => fst result = mean (map (fun j => loss (probabilities (scores j)) (nth j ls 0)) (seq 0 (length clouds))) /\
           fraction (length clouds) (fun j => predicted (scores j) (nth j ls 0)) (snd result)).
Proof.
  intros eps fs rs cs name t mode vars ow ob net bn drop dw db samples clouds L u Hm Hne Hc1 Hc2 Hn Hch0 HpL H1 Hu Hnet Hbn Hdr HT Hone.
  assert (HL : 0 < L) by (destruct rs; [congruence|cbn; lia]).
  assert (Hpos : Forall (fun r => (0 < r)%Q) rs). { destruct HT as [_ _ _ _ _ T6]. eapply Forall_impl; [|exact T6]. intros r (X & _). exact X. }
  destruct (reference eps samples clouds rs mode Hm HT) as (ref & Href).
  set (chans := fun i => nth i fs 0).
  set (conv := fun i r up lo X => cuda_formula t 4 8 (vars i) (chans i) (chans (S i)) r up lo X).
  set (X0 := fun j => encoded conv (small_post bn chans ow ob) 0 cs (batch_input 1 samples clouds [j]) (ref j) (rows_for samples (ids_of_sizes (repeat samples 1)) (repeat [1%R] (1 * samples)))).
  set (bottom0 := fun j => snd (last (ref j) (batch_input 1 samples clouds [j]))).
  set (logits0 := fun j => dense_head (fun X => drop 0 (activated (bn (2 * L - 2)) X)) (fun X => drop 1 (activated (bn (2 * L - 1)) X))
    dw db 1 (chans L) (nth (length fs - 2) fs 0) u (by_element 1 (bottom0 j) (X0 j))).
  exists (fun j => nth 0 (logits0 j) []).
  intros active sactive pactive bactive warp time B ls g loss gdraws Hdev HB HC HLim HLs HMod HG.
  assert (HTB := test_any _ B _ _ _ HT HB HC).
  assert (Hcall : forall i js (P : feat -> Prop), length js = B -> Forall (fun j => j < length clouds) js -> P (Feat u (inr (map (fun j => nth 0 (logits0 j) []) js))) ->
    small_call_gpu active sactive pactive bactive warp (time i) eps net bn drop dw db B
      (Padded [B] samples (batch_points samples clouds js)) (Feat 1 (inl (Padded [B] samples (repeat [1%R] (B * samples))))) (repeat samples B) P).
  { intros i js P Hjs Fjs HP.
    assert (Hb := cuda_ready eps B samples clouds [] js (scan_limit active warp) rs mode HTB Hjs Fjs Hpos Hm HLim).
    rewrite <- H1.
    apply (small_runs active sactive pactive bactive warp (time i) eps B samples _ _ fs rs cs name t mode vars ow ob net bn drop dw db (repeat [1%R] (B * samples)) _ Hdev Hb HL Hc1 Hc2 Hn Hch0 HpL Hnet
      (fun k => rowwise_keeps _ (Hbn k)) (fun k => rowwise_keeps _ (Hdr k)) (repeat_length _ _) (ones_rows _ _ H1)).
    intros out (data & Hch & HMat & HA & HS & ->). cbv zeta in *.
    destruct (nth_error rs (L - 1)) as [r|] eqn:Er; [|apply nth_error_None in Er; lia].
    assert (El := last_item rs _ r Er eq_refl). rewrite El in Hone.
    assert (O2 := batch_one eps B samples clouds _ js HTB Hjs Fjs r mode Hm Hone).
    destruct (HS r Er O2) as [N2 K2]. clear HS. rewrite N2 in HMat |- *. fold L in HMat |- *.
    rewrite (rows_equal u (fun j => nth 0 (logits0 j) []) js B _ Hjs HMat); [exact HP|]. clear P HP HMat.
    intros e He. set (j := nth e js 0). assert (Hj : j < length clouds). { rewrite Forall_forall in Fjs. apply Fjs, nth_In. lia. }
    destruct (Href j Hj) as [Hch1 Hl1]. symmetry.
    assert (F1 : Forall (fun j => j < length clouds) [j]) by (constructor; [exact Hj|constructor]).
    assert (HT1 := test_any _ 1 _ _ _ HT (le_n _) (ts_count _ _ _ _ _ HT)).
    assert (O1 := batch_one eps 1 samples clouds _ [j] HT1 eq_refl F1 r mode Hm Hone).
    assert (Ell : length (batch_input 1 samples clouds [j] :: ref j) = S L).
    { pose proof (chain_length _ _ _ Hch1) as Y. rewrite map_length in Y. exact Y. }
    assert (Ebot : nth_error (batch_input 1 samples clouds [j] :: ref j) L = Some (last (ref j) (batch_input 1 samples clouds [j]))).
    { pose proof (last_nth (ref j) (batch_input 1 samples clouds [j])) as Y. cbn [length] in Ell. replace (length (ref j)) with L in Y by lia. exact Y. }
    destruct (Hl1 _ _ Ebot) as [B1 B2].
    assert (Hb1 := cuda_ready eps 1 samples clouds [] [j] (1 * samples) rs mode HT1 eq_refl F1 Hpos Hm (le_n _)).
    assert (Lx : length (X0 j) = length (bottom0 j)).
    { apply encoded_length; [intros; apply cuda_formula_matrix|cbn [length] in Ell; lia|]. intros E. rewrite E in Ell. cbn in Ell. lia. }
    assert (Hil : length (fst (batch_input 1 samples clouds [j])) = length (snd (batch_input 1 samples clouds [j]))).
    { unfold batch_input. cbn [fst snd]. rewrite (batch_rows eps 1 samples clouds [] [j] HT1 eq_refl F1), uniform_ids_length. exact (batch_length eps 1 samples clouds [] [j] HT1 eq_refl F1). }
    destruct (one_row [] mode eps rs r 1 (fst (batch_input 1 samples clouds [j])) (snd (batch_input 1 samples clouds [j])) (ref j) _ (X0 j)
      (ci_eps _ _ _ _ _ _ _ _ Hb1) Hpos Hil (input_ids _ _ _ _ _ _ _ _ Hb1) Hch1 Er O1 Ebot B1 B2 Lx) as [N1 K1].
    destruct (ci_points _ _ _ _ _ _ _ _ Hb1) as [P1 _]. destruct (ci_sizes _ _ _ _ _ _ _ _ Hb1) as [S1 S1'].
    destruct (ci_points _ _ _ _ _ _ _ _ Hb) as [P2 _]. destruct (ci_sizes _ _ _ _ _ _ _ _ Hb) as [S2 S2'].
    apply (small_core eps fs rs cs mode conv ow ob bn drop dw db 1 samples (batch_points samples clouds [j]) (repeat samples 1) (repeat [1%R] (1 * samples)) 0
      B samples (batch_points samples clouds js) (repeat samples B) (repeat [1%R] (B * samples)) e (seq 0 samples) (fun _ => 0%Q) (ref j) data _ u
      Hm HL Hc1 Hbn Hdr); auto.
    - intros. apply cuda_formula_matrix.
    - intros i' r0 up lo up2 lo2 ps qs X X2 A1 A2 A3. now apply (cuda_match _ _ _ _ _ _ _ (fun _ => 0%Q) 0 e up lo up2 lo2 ps qs).
    - exact (batch_same 1 samples clouds B js e j eps _ (conj (le_n 1) HB) HTB Hjs Fjs He eq_refl Hj).
    - rewrite nth_repeat_lt by lia. intros k Hk. rewrite seq_nth by auto. rewrite !nth_repeat_lt by nia. reflexivity. }
  split.
  - intros i js Hjs Fjs. exact (Hcall i js _ Hjs Fjs eq_refl).
  - eapply (validation_gpu_ok loss _ clouds ls B samples u g gdraws (fun j => nth 0 (logits0 j) [])); auto.
    + lia.
    + destruct HTB as [F _ _ _ _ _]. eapply Forall_impl; [|exact F]. intros m (X & _). exact X.
    + intros j Hj. destruct (affine_matrix 1 (nth (length fs - 2) fs 0) u (dw 1) (db 1)
        ((fun X => drop 1 (activated (bn (2 * L - 1)) X)) (affine 1 (chans L) (nth (length fs - 2) fs 0) (dw 0) (db 0) ((fun X => drop 0 (activated (bn (2 * L - 2)) X)) (by_element 1 (bottom0 j) (X0 j)))))) as (A1 & A2).
      rewrite Forall_forall in A2. apply A2, nth_In. unfold logits0, dense_head. rewrite A1. lia.
Qed.

(** C67. The residual network: the same statement; the last radius is arbitrary. *)
Lemma C67_large_proof :
  forall eps feature_sizes pool_radii conv_radii name t mode iv sv bv net bns bnb bn drop dw db samples clouds,
    let L := length pool_radii in
    let u := nth (length feature_sizes - 1) feature_sizes 0 in
    means mode average_names -> pool_radii <> [] -> length conv_radii = L -> Forall (fun r => (0 < r)%Q) conv_radii -> conv_named name t ->
    (forall i, i < L -> cuda_channels (nth i feature_sizes 0 / 4)) -> 1 <= u ->
    mk_large feature_sizes pool_radii conv_radii name mode iv sv bv = Ok net ->
    (forall i k, rowwise (bns i k)) -> (forall i k, rowwise (bnb i k)) -> (forall k, rowwise (bn k)) -> (forall k, rowwise (drop k)) ->
    test_set eps 1 samples clouds pool_radii ->
    exists scores : nat -> list R, forall active sactive pactive bactive warp time B ls g loss gdraws,
      device_samples active sactive pactive bactive warp ->
      1 <= B -> (Z.of_nat B * Z.of_nat samples < 2 ^ 31 - 1)%Z -> B * samples <= scan_limit active warp ->
      length ls = length clouds -> length clouds mod B = 0 -> in_use clouds ls B false samples g ->
      (forall i js, length js = B -> Forall (fun j => j < length clouds) js ->
         large_call_gpu active sactive pactive bactive warp (time i) eps net bns bnb bn drop dw db B
           (Padded [B] samples (concat (map (fun j => firstn samples (nth j clouds [])) js)))
           (Feat 1 (inl (Padded [B] samples (repeat [1%R] (B * samples))))) (repeat samples B)
           (fun out => out = Feat u (inr (map scores js)))) /\
      validation_gpu loss (fun i => large_call_gpu active sactive pactive bactive warp (time i) eps net bns bnb bn drop dw db B) g samples gdraws
        (fun result => fst result = mean (map (fun j => loss (probabilities (scores j)) (nth j ls 0)) (seq 0 (length clouds))) /\
           fraction (length clouds) (fun j => predicted (scores j) (nth j ls 0)) (snd result)).
Proof.
  intros eps fs rs cs name t mode iv sv bv net bns bnb bn drop dw db samples clouds L u Hm Hne Hc1 Hc2 Hn Hch0 Hu Hnet Hbs Hbb Hbn Hdr HT.
  assert (HL : 0 < L) by (destruct rs; [congruence|cbn; lia]).
  assert (Hpos : Forall (fun r => (0 < r)%Q) rs). { destruct HT as [_ _ _ _ _ T6]. eapply Forall_impl; [|exact T6]. intros r (X & _). exact X. }
  destruct (reference eps samples clouds rs mode Hm HT) as (ref & Href).
  set (chans := fun i => nth i fs 0).
  set (conv := fun v cin cout r up lo X => cuda_formula t 1 16 v cin cout r up lo X).
  set (strided := fun i p up lo X => block_formula (conv (bv_conv (sv i))) (bns i) (sv i) (chans (i - 1)) (chans i) p (Some p) up lo X).
  set (plain := fun i c lo X => block_formula (conv (bv_conv (bv i))) (bnb i) (bv i) (chans i) (chans i) c None lo lo X).
  set (top := fun j => nth 0 (ref j) (batch_input 1 samples clouds [j])).
  set (c0 := nth 0 cs 0%Q).
  set (start := fun j => plain 0 c0 (top j) (conv iv 1 (chans 0) c0 (top j) (top j) (rows_for samples (snd (top j)) (repeat [1%R] (1 * samples))))).
  set (logits0 := fun j => dense_head (fun X => drop 0 (activated (bn 0) X)) (activated (fun X => drop 1 (bn 1 X)))
    dw db 1 (chans (L - 1)) (nth (length fs - 2) fs 0) u
    (averaged 1 (snd (last (ref j) (batch_input 1 samples clouds [j]))) (chans (L - 1)) (deeper strided plain 1 (tl rs) (tl cs) (top j) (tl (ref j)) (start j)))).
  exists (fun j => nth 0 (logits0 j) []).
  intros active sactive pactive bactive warp time B ls g loss gdraws Hdev HB HC HLim HLs HMod HG.
  assert (HTB := test_any _ B _ _ _ HT HB HC).
  assert (Hcall : forall i js (P : feat -> Prop), length js = B -> Forall (fun j => j < length clouds) js -> P (Feat u (inr (map (fun j => nth 0 (logits0 j) []) js))) ->
    large_call_gpu active sactive pactive bactive warp (time i) eps net bns bnb bn drop dw db B
      (Padded [B] samples (batch_points samples clouds js)) (Feat 1 (inl (Padded [B] samples (repeat [1%R] (B * samples))))) (repeat samples B) P).
  { intros i js P Hjs Fjs HP.
    assert (Hb := cuda_ready eps B samples clouds [] js (scan_limit active warp) rs mode HTB Hjs Fjs Hpos Hm HLim).
    apply (large_runs active sactive pactive bactive warp (time i) eps B samples _ _ fs rs cs name t mode iv sv bv net bns bnb bn drop dw db (repeat [1%R] (B * samples)) _ Hdev Hb HL Hc1 Hc2 Hn Hch0 Hnet
      (fun i k => rowwise_keeps _ (Hbs i k)) (fun i k => rowwise_keeps _ (Hbb i k)) (fun k => rowwise_keeps _ (Hbn k)) (fun k => rowwise_keeps _ (Hdr k)) (repeat_length _ _) (ones_rows _ _ eq_refl)).
    intros out (data & Hch & HMat & ->). cbv zeta in *.
    rewrite (rows_equal u (fun j => nth 0 (logits0 j) []) js B _ Hjs HMat); [exact HP|]. clear P HP HMat.
    intros e He. set (j := nth e js 0). assert (Hj : j < length clouds). { rewrite Forall_forall in Fjs. apply Fjs, nth_In. lia. }
    destruct (Href j Hj) as [Hch1 _]. symmetry.
    assert (F1 : Forall (fun j => j < length clouds) [j]) by (constructor; [exact Hj|constructor]).
    assert (HT1 := test_any _ 1 _ _ _ HT (le_n _) (ts_count _ _ _ _ _ HT)).
    assert (Hb1 := cuda_ready eps 1 samples clouds [] [j] (1 * samples) rs mode HT1 eq_refl F1 Hpos Hm (le_n _)).
    destruct (ci_points _ _ _ _ _ _ _ _ Hb1) as [P1 _]. destruct (ci_sizes _ _ _ _ _ _ _ _ Hb1) as [S1 S1'].
    destruct (ci_points _ _ _ _ _ _ _ _ Hb) as [P2 _]. destruct (ci_sizes _ _ _ _ _ _ _ _ Hb) as [S2 S2'].
    apply (large_core eps fs rs cs mode conv iv sv bv bns bnb bn drop dw db 1 samples (batch_points samples clouds [j]) (repeat samples 1) (repeat [1%R] (1 * samples)) 0
      B samples (batch_points samples clouds js) (repeat samples B) (repeat [1%R] (B * samples)) e (seq 0 samples) (fun _ => 0%Q) 1%R (ref j) data _ u
      Hm HL Hc1 Hbs Hbb Hbn Hdr); auto.
    - intros. apply cuda_formula_matrix.
    - intros v cin cout r up lo up2 lo2 ps qs' X X2 A1 A2 A3. now apply (cuda_match _ _ _ _ _ _ _ (fun _ => 0%Q) 0 e up lo up2 lo2 ps qs').
    - exact (batch_same 1 samples clouds B js e j eps _ (conj (le_n 1) HB) HTB Hjs Fjs He eq_refl Hj).
    - rewrite nth_repeat_lt by lia. intros k Hk. rewrite !nth_repeat_lt by nia. split; reflexivity. }
  split.
  - intros i js Hjs Fjs. exact (Hcall i js _ Hjs Fjs eq_refl).
  - eapply (validation_gpu_ok loss _ clouds ls B samples u g gdraws (fun j => nth 0 (logits0 j) [])); auto.
    + lia.
    + destruct HTB as [F _ _ _ _ _]. eapply Forall_impl; [|exact F]. intros m (X & _). exact X.
    + intros j Hj. unfold logits0, dense_head.
      match goal with |- length (nth 0 (affine ?a ?b ?c ?d ?e ?X) []) = _ => destruct (affine_matrix a b c d e X) as (A1 & A2) end.
      rewrite Forall_forall in A2. apply A2, nth_In. rewrite A1. lia.
Qed.

(** ** Examples *)
(** Four models one by one on one device, and all four in one batch on another. *)
Example C67_small_ex_proof :
  forall vars ow ob dw db loss ls, length ls = 4 ->
    exists net, mk_small [1; 8; 8; 8; 3] [1#1; 4#1]%Q [1#1; 4#1]%Q "MCConv" "cell average" vars ow ob = Ok net /\
    exists l a, forall active sactive pactive bactive warp time active2 sactive2 pactive2 bactive2 warp2 time2,
      device_samples active sactive pactive bactive warp -> device_samples active2 sactive2 pactive2 bactive2 warp2 ->
      validation_gpu loss (fun i => small_call_gpu active sactive pactive bactive warp (time i) (1#1000) net (fun _ X => X) (fun _ X => X) dw db 1)
        (new_generator ex62_clouds ls 1 false [2; 0; 3; 1]) 2 (fun _ _ => []) (fun result => fst result = l /\ fraction 4 a (snd result)) /\
      validation_gpu loss (fun i => small_call_gpu active2 sactive2 pactive2 bactive2 warp2 (time2 i) (1#1000) net (fun _ X => X) (fun _ X => X) dw db 4)
        (new_generator ex62_clouds ls 4 false (seq 0 4)) 2 (fun _ _ => []) (fun result => fst result = l /\ fraction 4 a (snd result)).
Proof.
  intros vars ow ob dw db loss ls HL. destruct (ex58_net _ _ "cell average" vars ow ob (or_intror (or_introl eq_refl))) as (net & En).
  exists net. split; [exact En|]. destruct (ex62_set 2 (or_introl eq_refl)) as (T2 & X).
  assert (T1 : test_set (1#1000) 1 2 ex62_clouds [1#1; 4#1]%Q).
  { destruct (test_less 1 _ _ _ _ _ T2 ltac:(lia)) as [A1 A2 A3 A4 A5 A6]. constructor; auto. apply Forall_app in A6. apply A6. }
  destruct (C67_small_proof (1#1000) [1; 8; 8; 8; 3] [1#1; 4#1]%Q [1#1; 4#1]%Q "MCConv" TMC "cell average" vars ow ob net (fun _ X => X) (fun _ X => X) dw db 2 ex62_clouds
    ltac:(apply means_average; cbn; tauto) ltac:(discriminate) eq_refl ltac:(repeat (constructor; [reflexivity|]); constructor) (or_introl (conj eq_refl eq_refl))
    ltac:(intros [|[|i]] Hi; cbn in *; [split; [lia|left; lia]|split; [lia|right; reflexivity]|lia]) ltac:(cbn; lia) eq_refl ltac:(cbn; lia) En (fun _ => ex62_id) (fun _ => ex62_id) T1 X) as (scores & S).
  eexists _, _. intros active sactive pactive bactive warp time active2 sactive2 pactive2 bactive2 warp2 time2 Hdev Hdev2.
  assert (B1 : 1 <= 1) by lia. assert (B2 : 1 <= 2) by lia. assert (B4 : 1 <= 4) by lia.
  assert (Big : forall a w n, n <= 2 ^ 8 * 2 -> n <= scan_limit a w).
  { intros a w n Hn. apply Nat.le_trans with (1 := Hn). apply Nat.le_add_r. }
  split.
  - assert (G : in_use ex62_clouds ls 1 false 2 (new_generator ex62_clouds ls 1 false [2; 0; 3; 1])) by (constructor; exact ex62_perm).
    exact (proj2 (S active sactive pactive bactive warp time 1 ls _ loss (fun _ _ => []) Hdev B1 eq_refl (Big active warp (1 * 2) ltac:(apply Nat.leb_le; reflexivity)) HL eq_refl G)).
  - assert (G : in_use ex62_clouds ls 4 false 2 (new_generator ex62_clouds ls 4 false (seq 0 4))) by (constructor; reflexivity).
    exact (proj2 (S active2 sactive2 pactive2 bactive2 warp2 time2 4 ls _ loss (fun _ _ => []) Hdev2 B4 eq_refl (Big active2 warp2 (4 * 2) ltac:(apply Nat.leb_le; reflexivity)) HL eq_refl G)).
Qed.
Example C67_large_ex_proof :
  forall iv sv bv dw db loss ls, length ls = 4 ->
    exists net, mk_large [4; 8; 8; 3] [1#1; 4#1]%Q [1#1; 4#1]%Q "MCConv" "cell average" iv sv bv = Ok net /\
    exists l a, forall active sactive pactive bactive warp time active2 sactive2 pactive2 bactive2 warp2 time2,
      device_samples active sactive pactive bactive warp -> device_samples active2 sactive2 pactive2 bactive2 warp2 ->
      validation_gpu loss (fun i => large_call_gpu active sactive pactive bactive warp (time i) (1#1000) net (fun _ _ X => X) (fun _ _ X => X) (fun _ X => X) (fun _ X => X) dw db 2)
        (new_generator ex62_clouds ls 2 false [2; 0; 3; 1]) 2 (fun _ _ => []) (fun result => fst result = l /\ fraction 4 a (snd result)) /\
      validation_gpu loss (fun i => large_call_gpu active2 sactive2 pactive2 bactive2 warp2 (time2 i) (1#1000) net (fun _ _ X => X) (fun _ _ X => X) (fun _ X => X) (fun _ X => X) dw db 4)
        (new_generator ex62_clouds ls 4 false (seq 0 4)) 2 (fun _ _ => []) (fun result => fst result = l /\ fraction 4 a (snd result)).
Proof.
  intros iv sv bv dw db loss ls HL. destruct (ex62_set 2 (or_introl eq_refl)) as (T2 & X).
  assert (En : exists net, mk_large [4; 8; 8; 3] [1#1; 4#1]%Q [1#1; 4#1]%Q "MCConv" "cell average" iv sv bv = Ok net) by (eexists; unfold mk_large; cbn; reflexivity).
  destruct En as (net & En). exists net. split; [exact En|].
  assert (T1 : test_set (1#1000) 1 2 ex62_clouds [1#1; 4#1]%Q).
  { destruct (test_less 1 _ _ _ _ _ T2 ltac:(lia)) as [A1 A2 A3 A4 A5 A6]. constructor; auto. apply Forall_app in A6. apply A6. }
  destruct (C67_large_proof (1#1000) [4; 8; 8; 3] [1#1; 4#1]%Q [1#1; 4#1]%Q "MCConv" TMC "cell average" iv sv bv net (fun _ _ X => X) (fun _ _ X => X) (fun _ X => X) (fun _ X => X) dw db 2 ex62_clouds
    ltac:(apply means_average; cbn; tauto) ltac:(discriminate) eq_refl ltac:(repeat (constructor; [reflexivity|]); constructor) (or_introl (conj eq_refl eq_refl))
    ltac:(intros [|[|i]] Hi; cbn in *; [split; [lia|left; lia]|split; [lia|left; lia]|lia]) ltac:(cbn; lia) En (fun _ _ => ex62_id) (fun _ _ => ex62_id) (fun _ => ex62_id) (fun _ => ex62_id) T1) as (scores & S).
  eexists _, _. intros active sactive pactive bactive warp time active2 sactive2 pactive2 bactive2 warp2 time2 Hdev Hdev2.
  assert (B1 : 1 <= 1) by lia. assert (B2 : 1 <= 2) by lia. assert (B4 : 1 <= 4) by lia.
  assert (Big : forall a w n, n <= 2 ^ 8 * 2 -> n <= scan_limit a w).
  { intros a w n Hn. apply Nat.le_trans with (1 := Hn). apply Nat.le_add_r. }
  split.
  - assert (G : in_use ex62_clouds ls 2 false 2 (new_generator ex62_clouds ls 2 false [2; 0; 3; 1])) by (constructor; exact ex62_perm).
    exact (proj2 (S active sactive pactive bactive warp time 2 ls _ loss (fun _ _ => []) Hdev B2 eq_refl (Big active warp (2 * 2) ltac:(apply Nat.leb_le; reflexivity)) HL eq_refl G)).
  - assert (G : in_use ex62_clouds ls 4 false 2 (new_generator ex62_clouds ls 4 false (seq 0 4))) by (constructor; reflexivity).
    exact (proj2 (S active2 sactive2 pactive2 bactive2 warp2 time2 4 ls _ loss (fun _ _ => []) Hdev2 B4 eq_refl (Big active2 warp2 (4 * 2) ltac:(apply Nat.leb_le; reflexivity)) HL eq_refl G)).
Qed.
