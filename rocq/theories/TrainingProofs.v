(** Proofs about the evaluation on the test set and the learning rate (C62, C63). *)
From Coq Require Import String List Arith ZArith QArith Reals Qreals Lia Lra Bool Permutation.
From Verif Require Import Tensor TensorFacts Spec SpecText TextFacts PointCloud SpecCloud CloudProofs QFacts SpecGrid
  Neighbors SpecNeighbors Sampling SpecSampling Hierarchy SpecHierarchy Pdf SpecPdf
  RTensor Kernels Layers SpecLayers Blocks SpecBlocks Classifier SpecClassifier ClassifierFacts ClassifierProofs
  SamplingProofs HierarchyProofs LayerLink SpecMatch MatchNet PredictionProofs SampleFacts Generator SpecGenerator GeneratorProofs Training SpecTraining TrainingFacts.
Import ListNotations.
Local Open Scope nat_scope.

(** ** Learning rate *)
Lemma epoch_steps_ok n k : forall it c, (forall i, i < k -> (it + i) / (20 * n) = c) -> epoch_steps n it k = repeat (1 / 1000 * (7 / 10) ^ c)%R k.
Proof.
  induction k as [|k IH]; intros it c H; [reflexivity|]. cbn [epoch_steps repeat]. f_equal.
  - unfold lr_decay, decayed. rewrite <- (H 0) by lia. now rewrite Nat.add_0_r.
  - apply IH. intros i Hi. rewrite <- (H (S i)) by lia. f_equal. lia.
Qed.
Lemma stage n e i : 0 < n -> i < n -> (e * n + i) / (20 * n) = e / 20.
Proof.
  intros Hn Hi. rewrite (Nat.mul_comm 20 n), <- Nat.div_div by lia. f_equal. rewrite Nat.mul_comm, Nat.add_comm, (Nat.mul_comm n e), Nat.div_add by lia. rewrite Nat.div_small by lia. reflexivity.
Qed.
Lemma learning_rates_ok n : 0 < n -> forall epochs e,
  learning_rates n (e * n) e epochs = map (fun e => let r := (1 / 1000 * (7 / 10) ^ (e / 20))%R in (r, repeat r n)) (seq e epochs).
Proof.
  intros Hn. induction epochs as [|k IH]; intros e; [reflexivity|]. cbn [learning_rates seq map]. f_equal.
  - f_equal.
    + unfold lr_decay, decayed. do 2 f_equal. rewrite <- (stage n e 0) by lia. f_equal. lia.
    + apply epoch_steps_ok. intros i Hi. now apply stage.
  - rewrite <- IH. f_equal. lia.
Qed.
(** C63. In epoch [e] the learning rate is [0.001 * 0.7 ^ floor(e / 20)] in every
    of the [floor(N / B)] steps, which is the one that is printed. *)
Lemma C63_rate_proof :
  forall points ls B aug samples g epochs,
    in_use points ls B aug samples g -> 0 < B -> B <= length points ->
    exists rates, training_rates g epochs = Ok rates /\ length rates = epochs /\
      forall e, e < epochs -> let r := (1 / 1000 * (7 / 10) ^ (e / 20))%R in
        nth_error rates e = Some (r, repeat r (length points / B)).
Proof.
  intros points ls B aug samples g epochs H HB HN. destruct (in_use_inv _ _ _ _ _ _ H) as (E1 & E2 & E3 & E4 & P).
  unfold training_rates, num_batches. rewrite E3, E1. destruct (Nat.eqb_spec B 0) as [X|_]; [lia|]. cbn [bind].
  assert (Hn : 0 < length points / B) by (apply Nat.div_str_pos; lia).
  eexists. split; [reflexivity|]. pose proof (learning_rates_ok _ Hn epochs 0) as X. rewrite Nat.mul_0_l in X. rewrite X. clear X. rewrite map_length, seq_length. split; [reflexivity|].
  intros e He. rewrite nth_error_map. rewrite (nth_error_nth' (seq 0 epochs) e 0) by (rewrite seq_length; auto). rewrite seq_nth by auto. reflexivity.
Qed.

(** ** The validation for any network that treats every cloud on its own *)
Lemma concat_chunks {A} (d : A) B n : forall l, length l = n * B ->
  concat (map (fun i => map (fun b => nth (i * B + b) l d) (seq 0 B)) (seq 0 n)) = l.
Proof.
  induction n as [|n IH]; intros l H; [destruct l; [reflexivity|discriminate]|].
  cbn [seq map concat]. cbn [Nat.mul] in H. transitivity (firstn B l ++ skipn B l); [|apply firstn_skipn]. f_equal.
  - cbn [Nat.mul]. cbn [Nat.add]. apply (nth_ext _ _ d d).
    + rewrite map_length, seq_length, firstn_length. lia.
    + intros k Hk. rewrite map_length, seq_length in Hk. rewrite nth_map_seq by auto. symmetry. exact (nth_firstn_skipn l B 0 k d Hk).
  - rewrite <- (IH (skipn B l)) by (rewrite skipn_length; lia). rewrite <- seq_shift, map_map. f_equal. apply map_ext. intros i. apply map_ext. intros b.
    rewrite nth_skipn'. f_equal. cbn. lia.
Qed.

(** The batches of one pass over the test set. *)
Lemma shown points ls B samples g draws : B <> 0 -> length ls = length points -> Forall (fun m => samples <= length m) points ->
  in_use points ls B false samples g ->
  exists ds js chunks, iterate g samples draws = Ok ds /\ batch g = B /\ NoDup js /\ length js = length points / B * B /\ Forall (fun j => j < length points) js /\
    (length points mod B = 0 -> Permutation js (seq 0 (length points))) /\
    length chunks = length points / B /\ concat chunks = js /\
    Forall2 (batch_of B samples (length points) (fun j => firstn samples (nth j points [])) (fun j => nth j ls 0)) chunks ds.
Proof.
  intros HB HL HS HG.
  destruct (C48_epoch_proof points ls B samples false g draws HB HL HS HG) as (ds & js & E & Lds & ND & Ljs & Fjs & Pjs & Hds).
  destruct (in_use_inv _ _ _ _ _ _ HG) as (E1 & E2 & E3 & E4 & P).
  set (n := length points / B) in *.
  set (chunks := map (fun i => map (fun b => nth (i * B + b) js 0) (seq 0 B)) (seq 0 n)).
  assert (C : concat chunks = js) by (apply concat_chunks; exact Ljs).
  assert (F2 : Forall2 (batch_of B samples (length points) (fun j => firstn samples (nth j points [])) (fun j => nth j ls 0)) chunks ds).
  { unfold chunks. assert (G : forall m k r, k + m <= n -> length r = m -> (forall i, i < m -> nth_error r i = nth_error ds (k + i)) ->
      Forall2 (batch_of B samples (length points) (fun j => firstn samples (nth j points [])) (fun j => nth j ls 0))
        (map (fun i => map (fun b => nth (i * B + b) js 0) (seq 0 B)) (seq k m)) r).
    { induction m as [|m IH]; intros k r Hk Hr Hn; [destruct r; [constructor|discriminate]|]. destruct r as [|d r]; [discriminate|].
      cbn [seq map]. constructor.
      - destruct (Hds k ltac:(lia)) as (d' & Ed & Ls & Lo & Hb). specialize (Hn 0 ltac:(lia)). rewrite Nat.add_0_r in Hn. cbn in Hn. rewrite Ed in Hn. injection Hn as ->.
        split; [now rewrite map_length, seq_length|]. split.
        + apply Forall_forall. intros j Hj. apply in_map_iff in Hj. destruct Hj as (b & <- & Hb'). apply in_seq in Hb'. rewrite Forall_forall in Fjs. apply Fjs. apply nth_In. rewrite Ljs. nia.
        + split; [|exact Lo]. rewrite map_map. apply (nth_ext _ _ ([], 0) ([], 0)).
          * now rewrite map_length, seq_length.
          * intros b Hb'. rewrite Ls in Hb'. rewrite nth_map_seq by auto. specialize (Hb b Hb'). cbv zeta in Hb. apply nth_error_nth with (d := ([], 0)) in Hb. exact Hb.
      - apply IH; [lia|cbn in Hr; lia|]. intros i Hi. specialize (Hn (S i) ltac:(lia)). cbn in Hn. rewrite Hn. f_equal. lia. }
    apply G; auto. }
  exists ds, js, chunks. split; [exact E|]. split; [exact E3|]. repeat (split; [assumption|]). split; [unfold chunks; now rewrite map_length, seq_length|].
  split; [exact C|exact F2].
Qed.
Lemma final_metrics loss label scores B n js chunks : B <> 0 -> length js = n * B -> length chunks = n -> concat chunks = js ->
  (metric_result (Metric (0 + rsum (map (fun js => (rsum (map (cost loss label scores) js) / INR B)%R) chunks)) (length chunks)),
   metric_result (Metric (0 + INR (length (filter (hit label scores) (concat chunks)))) (length (concat chunks))))
  = (mean (map (cost loss label scores) js), (INR (length (filter (hit label scores) js)) / INR (length js))%R).
Proof.
  intros HB Ljs LC C. rewrite C, LC, Ljs. rewrite !Rplus_0_l.
  destruct (Nat.eq_dec n 0) as [Z0|Z0].
  - rewrite Z0 in *. cbn in Ljs. destruct js; [|discriminate]. unfold metric_result. cbn. unfold mean. cbn. f_equal; lra.
  - f_equal.
    + unfold metric_result. cbn [values total]. destruct (Nat.eqb_spec n 0) as [X|_]; [lia|]. unfold mean. rewrite map_length, Ljs, mult_INR.
      fold (rsum (map (cost loss label scores) js)). rewrite <- C at 1. rewrite concat_map, rs_concat, map_map.
      rewrite <- (map_map (fun js => rsum (map (cost loss label scores) js)) (fun x => (x / INR B)%R)), rs_scale.
      assert (INR B <> 0%R) by (apply not_0_INR; lia). assert (INR n <> 0%R) by (apply not_0_INR; lia). field. auto.
    + unfold metric_result. cbn [values total]. destruct (Nat.eqb_spec (n * B) 0) as [X|_]; [nia|]. reflexivity.
Qed.

Section Generic.
  Context (loss : list R -> nat -> R) (network : nat -> padded point -> feat -> list nat -> option (result feat)).
  Context (points : list (list point)) (ls : list nat) (B samples u : nat) (g : generator) (draws : nat -> nat -> list Q) (scores : nat -> list R).
  Hypothesis HB : B <> 0.
  Hypothesis HL : length ls = length points.
  Hypothesis HS : Forall (fun m => samples <= length m) points.
  Hypothesis HG : in_use points ls B false samples g.
  Hypothesis Hnet : forall i js, length js = B -> Forall (fun j => j < length points) js ->
    network i (Padded [B] samples (concat (map (fun j => firstn samples (nth j points [])) js)))
      (Feat 1 (inl (Padded [B] samples (repeat [1%R] (B * samples))))) (repeat samples B) = Some (Ok (Feat u (inr (map scores js)))).
  Lemma validation_ok : exists js, NoDup js /\ length js = length points / B * B /\ Forall (fun j => j < length points) js /\
    (length points mod B = 0 -> Permutation js (seq 0 (length points))) /\
    validation loss network g samples draws =
      Some (Ok (mean (map (cost loss (fun j => nth j ls 0) scores) js), (INR (length (filter (hit (fun j => nth j ls 0%nat) scores) js)) / INR (length js))%R)).
  Proof using All.
    destruct (shown points ls B samples g draws HB HL HS HG) as (ds & js & chunks & E & E3 & ND & Ljs & Fjs & Pjs & LC & C & F2).
    exists js. repeat (split; [assumption|]). unfold validation. rewrite E, E3.
    rewrite (evaluate_ok loss network B samples u (length points) _ _ scores Hnet chunks ds 0 _ _ F2). do 2 f_equal.
    unfold new_metric. cbn [total values Nat.add]. apply (final_metrics loss (fun j => nth j ls 0) scores B (length points / B)); auto.
  Qed.
End Generic.

Lemma fraction_ok N (h : nat -> bool) (P : nat -> Prop) js : Permutation js (seq 0 N) -> (forall j, j < N -> (h j = true <-> P j)) ->
  fraction N P (INR (length (filter h js)) / INR (length js))%R.
Proof.
  intros HP HH. exists (filter h js). split; [|split].
  - apply NoDup_filter. apply (Permutation_NoDup (Permutation_sym HP)), seq_NoDup.
  - intros j. rewrite filter_In. assert (I : In j js <-> j < N).
    { split; intros X; [apply (Permutation_in _ HP), in_seq in X; lia|]. apply (Permutation_in _ (Permutation_sym HP)), in_seq. lia. }
    rewrite I. split; intros (A & B); (split; [exact A|]); now apply HH.
  - now rewrite (Permutation_length HP), seq_length.
Qed.

(** C62. A network that returns for every cloud of a batch the scores of that
    cloud: the validation returns the mean loss and the fraction of correct
    predictions over all models of the test set, whatever the generator drew
    and did before, if the batch size divides the number of models. *)
Lemma C62_validation_proof :
  forall loss network points ls B samples u g draws scores,
    B <> 0 -> length points mod B = 0 -> length ls = length points -> Forall (fun m => samples <= length m) points ->
    in_use points ls B false samples g ->
    1 <= u -> (forall j, j < length points -> length (scores j) = u) ->
    (forall i js, length js = B -> Forall (fun j => j < length points) js ->
      network i (Padded [B] samples (concat (map (fun j => firstn samples (nth j points [])) js)))
        (Feat 1 (inl (Padded [B] samples (repeat [1%R] (B * samples))))) (repeat samples B) = Some (Ok (Feat u (inr (map scores js))))) ->
    exists accuracy,
      validation loss network g samples draws =
        Some (Ok (mean (map (fun j => loss (probabilities (scores j)) (nth j ls 0)) (seq 0 (length points))), accuracy)) /\
      fraction (length points) (fun j => predicted (scores j) (nth j ls 0)) accuracy.
Proof.
  intros loss network points ls B samples u g draws scores HB HM HL HS HG Hu Hlen Hnet.
  destruct (validation_ok loss network points ls B samples u g draws scores HB HL HS HG Hnet) as (js & ND & Ljs & Fjs & Pjs & E).
  specialize (Pjs HM). eexists. split.
  - rewrite E. do 3 f_equal. unfold mean. rewrite !map_length, (Permutation_length Pjs). f_equal.
    fold (rsum (map (cost loss (fun j => nth j ls 0) scores) js)). rewrite (rs_perm _ _ (Permutation_map _ Pjs)). unfold rsum. f_equal. apply map_ext. intros j. unfold cost. now rewrite softmax_probabilities.
  - apply fraction_ok; [exact Pjs|]. intros j Hj. unfold hit. apply argmax_hit. intros X. specialize (Hlen j Hj). rewrite X in Hlen. cbn in Hlen. lia.
Qed.

(** ** Batches of the test set *)
Lemma concat_uniform {A} n (l : list (list A)) : Forall (fun x => length x = n) l -> length (concat l) = length l * n.
Proof. induction 1 as [|x l H _ IH]; cbn; [reflexivity|]. rewrite app_length. lia. Qed.
Lemma nth_concat_uniform {A} n (l : list (list A)) d : Forall (fun x => length x = n) l -> forall e k, e < length l -> k < n ->
  nth (e * n + k) (concat l) d = nth k (nth e l []) d.
Proof.
  induction 1 as [|x l H _ IH]; intros e k He Hk; [cbn in He; lia|]. cbn [concat]. destruct e as [|e].
  - cbn. apply app_nth1. lia.
  - cbn [nth]. rewrite app_nth2 by lia. rewrite <- IH by (cbn in He; lia). f_equal. rewrite H. lia.
Qed.
Lemma uniform_ids B n : ids_of_sizes (repeat n B) = concat (map (fun b => repeat b n) (seq 0 B)).
Proof.
  unfold ids_of_sizes. rewrite repeat_length. f_equal. apply map_ext_in. intros b Hb. apply in_seq in Hb. f_equal.
  apply nth_repeat_lt. lia.
Qed.
Lemma uniform_forall B n : Forall (fun x : list nat => length x = n) (map (fun b => repeat b n) (seq 0 B)).
Proof. apply Forall_forall. intros x Hx. apply in_map_iff in Hx. destruct Hx as (b & <- & _). apply repeat_length. Qed.
Lemma uniform_ids_length B n : length (ids_of_sizes (repeat n B)) = B * n.
Proof. rewrite uniform_ids, (concat_uniform n) by apply uniform_forall. now rewrite map_length, seq_length. Qed.
Lemma split_index i B n : 0 < n -> i < B * n -> i = i / n * n + i mod n /\ i / n < B /\ i mod n < n.
Proof.
  intros Hn Hi. pose proof (Nat.div_mod i n ltac:(lia)). pose proof (Nat.mod_upper_bound i n ltac:(lia)). split; [lia|]. split; [|auto].
  apply Nat.div_lt_upper_bound; lia.
Qed.
Lemma uniform_id B n i : 0 < n -> i < B * n -> nth i (ids_of_sizes (repeat n B)) 0 = i / n.
Proof.
  intros Hn Hi. destruct (split_index i B n Hn Hi) as (E & H1 & H2). rewrite E at 1. rewrite uniform_ids, (nth_concat_uniform n) by (try apply uniform_forall; rewrite ?map_length, ?seq_length; auto).
  rewrite nth_map_seq by auto. now apply nth_repeat_lt.
Qed.

Section Set_.
  Context (eps : Q) (B samples : nat) (clouds : list (list point)) (radii : list Q) (js : list nat).
  Hypothesis HT : test_set eps B samples clouds radii.
  Hypothesis Hjs : length js = B.
  Hypothesis Fjs : Forall (fun j => j < length clouds) js.
  Definition shown_cloud j := firstn samples (nth j clouds []).
  Definition batch_points := concat (map shown_cloud js).
  Lemma shown_len j : j < length clouds -> length (shown_cloud j) = samples.
  Proof using HT.
    clear Hjs Fjs. intros Hj. unfold shown_cloud. rewrite firstn_length. destruct HT as [F _ _ _ _ _]. rewrite Forall_forall in F.
    destruct (F (nth j clouds []) ltac:(apply nth_In; auto)) as (X & _). lia.
  Qed.
  Lemma shown_forall : Forall (fun x => length x = samples) (map shown_cloud js).
  Proof using HT Fjs. apply Forall_map. eapply Forall_impl; [|exact Fjs]. intros j Hj. now apply shown_len. Qed.
  Lemma batch_length : length batch_points = B * samples.
  Proof using HT Fjs Hjs. unfold batch_points. rewrite (concat_uniform samples) by apply shown_forall. now rewrite map_length, Hjs. Qed.
  Lemma batch_nth e k d : e < B -> k < samples -> nth (e * samples + k) batch_points d = nth k (shown_cloud (nth e js 0)) d.
  Proof using HT Fjs Hjs.
    intros He Hk. unfold batch_points. rewrite (nth_concat_uniform samples) by (try apply shown_forall; rewrite ?map_length; lia).
    rewrite (nth_indep _ [] (shown_cloud 0)) by (rewrite map_length; lia). now rewrite map_nth.
  Qed.
  Lemma batch_rows : valid_rows (repeat samples B) samples batch_points = batch_points.
  Proof using HT Fjs Hjs. apply valid_rows_full, batch_length. Qed.
  Definition batch_input : SpecHierarchy.batch := (valid_rows (repeat samples B) samples batch_points, ids_of_sizes (repeat samples B)).

  Lemma batch_close i i' : i < length (snd batch_input) -> i' < length (snd batch_input) -> nth i (snd batch_input) 0 = nth i' (snd batch_input) 0 ->
    exists c, In c clouds /\ In (nth i (fst batch_input) []) (firstn samples c) /\ In (nth i' (fst batch_input) []) (firstn samples c).
  Proof using HT Fjs Hjs.
    unfold batch_input. cbn [fst snd]. rewrite batch_rows, uniform_ids_length. intros Hi Hi' E.
    assert (Hs : 0 < samples) by apply HT. rewrite !uniform_id in E by auto.
    destruct (split_index i B samples Hs Hi) as (E1 & H1 & H2). destruct (split_index i' B samples Hs Hi') as (E1' & H1' & H2').
    rewrite E1, E1'. rewrite !batch_nth by auto. rewrite <- E. assert (Hj : nth (i / samples) js 0 < length clouds).
    { rewrite Forall_forall in Fjs. apply Fjs, nth_In. lia. }
    exists (nth (nth (i / samples) js 0) clouds []). split; [now apply nth_In|].
    split; apply nth_In; fold (shown_cloud (nth (i / samples) js 0)); rewrite shown_len; auto.
  Qed.
  Lemma batch_cells r : In r radii -> (0 < r)%Q /\ few_cells eps 3 (repeat r 3) B batch_input.
  Proof using HT Fjs Hjs.
    intros Hr. destruct HT as [_ _ _ _ _ F]. rewrite Forall_forall in F. destruct (F r Hr) as (P & nc & L & C & X). split; [exact P|].
    exists nc. split; [exact L|]. split; [exact C|]. intros d Hd. destruct (X d Hd) as (X1 & X2). split; [exact X1|].
    intros i i' Hi Hi' E. destruct (batch_close i i' Hi Hi' E) as (c & Hc & I1 & I2). unfold xc. rewrite (nth_repeat_lt r 0%Q 3 d) by lia. exact (X2 c _ _ Hc I1 I2).
  Qed.
  Lemma batch_ready pool mode fuel : incl pool radii -> means mode average_names -> B * samples <= fuel ->
    input_batch eps B samples batch_points (repeat samples B) pool mode fuel.
  Proof using HT Fjs Hjs.
    intros HI HM Hf. pose proof HT as [T1 T2 T3 T4 T5 T6]. constructor.
    - split; [apply batch_length|]. apply Forall_forall. intros x Hx. unfold batch_points in Hx. apply in_concat in Hx. destruct Hx as (c & Hc & Hx).
      apply in_map_iff in Hc. destruct Hc as (j & <- & Hj). rewrite Forall_forall in Fjs. specialize (Fjs j Hj). rewrite Forall_forall in T1.
      destruct (T1 (nth j clouds []) ltac:(apply nth_In; auto)) as (_ & X). rewrite Forall_forall in X. apply X. unfold shown_cloud in Hx.
      rewrite <- (firstn_skipn samples (nth j clouds [])). apply in_or_app. now left.
    - split; [apply repeat_length|]. apply Forall_forall. intros n Hn. apply repeat_spec in Hn. lia.
    - split; [exact T3|]. intros Hp. pose proof (sample_mode_poisson _ Hp). pose proof (sample_mode_average _ HM). congruence.
    - now right.
    - constructor.
      + apply T5.
      + apply T5.
      + lia.
      + intros X. apply (f_equal (@length nat)) in X. rewrite uniform_ids_length in X. cbn in X. nia.
      + rewrite uniform_ids_length. rewrite Nat2Z.inj_mul. exact T4.
      + rewrite uniform_ids_length. exact Hf.
      + apply Forall_map, Forall_forall. intros r Hr. destruct (batch_cells r (HI r Hr)) as (P & _). repeat split; cbn; try discriminate; try lia.
        * constructor; [exact P|constructor].
        * apply Qle_refl.
      + apply Forall_map, Forall_forall. intros r Hr. exact (proj2 (batch_cells r (HI r Hr))).
  Qed.
  Lemma batch_search conv : incl conv radii -> search_radii eps B batch_input (length conv) conv.
  Proof using HT Fjs Hjs. intros HI. split; [reflexivity|]. apply Forall_forall. intros r Hr. exact (batch_cells r (HI r Hr)). Qed.
  Lemma batch_one r mode : means mode average_names -> (forall d, d < 3 -> extent eps samples clouds r d 1) -> one_sample mode eps r batch_input.
  Proof using HT Fjs Hjs.
    intros HM H. right. split; [exact HM|]. intros i i' d Hi Hi' Hd E. destruct (batch_close i i' Hi Hi' E) as (c & Hc & I1 & I2).
    specialize (H d Hd c _ _ Hc I1 I2). unfold xc. rewrite Qmult_1_l in H. exact H.
  Qed.
End Set_.

(** Smaller batches of the same test set. *)
Lemma test_less c eps B samples clouds radii : test_set eps B samples clouds radii -> 1 <= c <= B -> test_set eps c samples clouds radii.
Proof.
  intros [T1 T2 T3 T4 T5 T6] Hc. constructor; auto.
  - lia.
  - nia.
  - eapply Forall_impl; [|exact T6]. intros r (P & nc & L & C & X). split; [exact P|]. exists nc. split; [exact L|]. split; [|exact X].
    assert (0 <= product nc)%Z; [|nia]. assert (G : forall l : list Z, (forall d, d < length l -> (1 <= nth d l 0)%Z) -> (0 <= product l)%Z).
    { induction l as [|z l IH]; intros G; [cbn; lia|]. cbn. pose proof (G 0 ltac:(cbn; lia)) as G0. cbn in G0.
      assert (0 <= product l)%Z by (apply IH; intros d Hd; exact (G (S d) ltac:(cbn; lia))). unfold product in *. nia. }
    apply G. intros d Hd. apply X. lia.
Qed.
Lemma all_repeat (P : nat -> Prop) j c : P j -> Forall P (repeat j c).
Proof. intros H. apply Forall_forall. intros x Hx. apply repeat_spec in Hx. now rewrite Hx. Qed.
Lemma batch_same c samples clouds B js e j eps radii : 1 <= c <= B -> test_set eps B samples clouds radii -> length js = B -> Forall (fun j => j < length clouds) js ->
  e < B -> nth e js 0 = j -> j < length clouds ->
  same_cloud 3 0 samples (repeat samples c) (batch_points samples clouds (repeat j c)) e samples (repeat samples B) (batch_points samples clouds js) (seq 0 samples) (fun _ => 0%Q).
Proof.
  intros Hc HT Hjs Fjs He E Hj. unfold same_cloud. rewrite !nth_repeat_lt by lia. split; [reflexivity|]. split; [reflexivity|].
  intros k d Hk Hd. unfold xc. rewrite (batch_nth eps B samples clouds radii js HT Hjs Fjs e k [] He Hk). rewrite seq_nth by auto.
  rewrite (batch_nth eps c samples clouds radii (repeat j c) (test_less c _ _ _ _ _ HT Hc) (repeat_length _ _) ltac:(now apply all_repeat) 0 (0 + k) [] ltac:(lia) ltac:(lia)). rewrite nth_repeat_lt by lia. rewrite E. cbn [Nat.add]. ring.
Qed.

Section EndToEnd.
  Context (call : nat -> (nat -> nat -> nat) -> nat -> padded point -> feat -> list nat -> option (result feat)).
  Context (eps : Q) (samples u : nat) (clouds : list (list point)) (radii : list Q) (c : nat).
  Definition called (fuel : nat) (draws : nat -> nat -> nat) (B : nat) (js : list nat) : option (result feat) :=
    call fuel draws B (Padded [B] samples (concat (map (fun j => firstn samples (nth j clouds [])) js)))
      (Feat 1 (inl (Padded [B] samples (repeat [1%R] (B * samples))))) (repeat samples B).
  Hypothesis Hu : 1 <= u.
  Hypothesis Hc : 1 <= c.
  Hypothesis Hpair : forall B fuel draws js e j, c <= B -> test_set eps B samples clouds radii -> length js = B -> Forall (fun j => j < length clouds) js ->
    B * samples <= fuel -> e < B -> nth e js 0 = j -> exists logits logits2,
      called (c * samples) (fun _ _ => 0) c (repeat j c) = Some (Ok (Feat u (inr logits))) /\ called fuel draws B js = Some (Ok (Feat u (inr logits2))) /\
      matrix c u logits /\ matrix B u logits2 /\ nth 0 logits [] = nth e logits2 [].
  Definition scores_of (j : nat) : list R :=
    match called (c * samples) (fun _ _ => 0) c (repeat j c) with
    | Some (Ok (Feat _ (inr logits))) => nth 0 logits []
    | _ => []
    end.
  Lemma called_ok B fuel draws js : c <= B -> test_set eps B samples clouds radii -> length js = B -> Forall (fun j => j < length clouds) js ->
    B * samples <= fuel -> called fuel draws B js = Some (Ok (Feat u (inr (map scores_of js)))).
  Proof using Hpair.
    clear Hu Hc. intros HcB HT Hjs Fjs Hf. assert (H2 : 1 <= B) by apply HT.
    destruct (Hpair B fuel draws js 0 _ HcB HT Hjs Fjs Hf ltac:(lia) eq_refl) as (l & l2 & E1 & E2 & M1 & M2 & E). rewrite E2. do 4 f_equal.
    apply (nth_ext _ _ [] []).
    - rewrite map_length, Hjs. apply M2.
    - intros e He. destruct M2 as (L2 & _). rewrite L2 in He.
      destruct (Hpair B fuel draws js e _ HcB HT Hjs Fjs Hf He eq_refl) as (l' & l2' & E1' & E2' & M1' & M2' & E').
      rewrite E2 in E2'. injection E2' as <-. rewrite <- E'. rewrite (nth_indep (map scores_of js) [] (scores_of 0)) by (rewrite map_length; lia). rewrite map_nth.
      unfold scores_of. rewrite E1'. reflexivity.
  Qed.
  Lemma scores_len B j : c <= B -> test_set eps B samples clouds radii -> j < length clouds -> length (scores_of j) = u.
  Proof using Hpair Hc.
    clear Hu. intros HcB HT Hj. assert (HT2 := test_less c _ _ _ _ _ HT (conj Hc HcB)).
    destruct (Hpair c (c * samples) (fun _ _ => 0) (repeat j c) 0 j (le_n _) HT2 (repeat_length _ _) ltac:(now apply all_repeat) (le_n _) Hc (nth_repeat_lt _ _ _ _ Hc)) as (l & l2 & E1 & E2 & M1 & M2 & E).
    unfold scores_of. rewrite E1. destruct M1 as (L & F). rewrite Forall_forall in F. apply F, nth_In. lia.
  Qed.
  Lemma end_to_end : exists scores : nat -> list R, forall B fuel ls g loss draws gdraws,
    c <= B -> test_set eps B samples clouds radii -> B * samples <= fuel -> length ls = length clouds -> length clouds mod B = 0 ->
    in_use clouds ls B false samples g ->
    (forall i js, length js = B -> Forall (fun j => j < length clouds) js -> called fuel (draws i) B js = Some (Ok (Feat u (inr (map scores js))))) /\
    exists accuracy,
      validation loss (fun i => call fuel (draws i) B) g samples gdraws =
        Some (Ok (mean (map (fun j => loss (probabilities (scores j)) (nth j ls 0)) (seq 0 (length clouds))), accuracy)) /\
      fraction (length clouds) (fun j => predicted (scores j) (nth j ls 0)) accuracy.
  Proof using Hpair Hu Hc.
    exists scores_of. intros B fuel ls g loss draws gdraws HcB HT Hf HL HM HG.
    assert (X : forall i js, length js = B -> Forall (fun j => j < length clouds) js -> called fuel (draws i) B js = Some (Ok (Feat u (inr (map scores_of js))))).
    { intros i js Hjs Fjs. now apply called_ok. }
    split; [exact X|]. assert (H2 : 1 <= B) by apply HT. eapply C62_validation_proof with (u := u) (B := B); auto.
    - lia.
    - destruct HT as [F _ _ _ _ _]. eapply Forall_impl; [|exact F]. intros m (Hm & _). exact Hm.
    - intros j Hj. exact (scores_len B j HcB HT Hj).
  Qed.
End EndToEnd.

(** C62. The network of modelnet40_small.py (inference, cell average sampling, one
    feature per point): every model of the test set has scores such that the
    network returns them for that model in every batch, and the validation
    returns the mean loss and the fraction of correct predictions over the whole
    test set. The scores depend neither on the batch size nor on the order in
    which the generator shows the models. *)
Lemma C62_small_proof :
  forall eps feature_sizes sample_radii conv_radii name t mode vars ow ob net bn drop dw db samples clouds,
    let u := nth (length feature_sizes - 1) feature_sizes 0 in
    means mode average_names -> sample_radii <> [] -> length conv_radii = length sample_radii -> conv_named name t ->
    Forall (fun c => 0 < c) feature_sizes -> nth 0 feature_sizes 0 = 1 ->
    mk_small feature_sizes sample_radii conv_radii name mode vars ow ob = Ok net ->
    (forall k, rowwise (bn k)) -> (forall k, rowwise (drop k)) ->
    (forall d, d < 3 -> extent eps samples clouds (last sample_radii 0%Q) d 1) ->
    let call := small_call GPU eps (find_neighbors_tf GPU) (compute_pdf_tf GPU) net bn drop dw db in
    exists scores : nat -> list R, forall B fuel ls g loss draws gdraws,
      (t = TPT -> 2 <= B) -> test_set eps B samples clouds (sample_radii ++ conv_radii) -> B * samples <= fuel -> length ls = length clouds -> length clouds mod B = 0 ->
      in_use clouds ls B false samples g ->
      (forall i js, length js = B -> Forall (fun j => j < length clouds) js ->
         call fuel (draws i) B (Padded [B] samples (concat (map (fun j => firstn samples (nth j clouds [])) js)))
           (Feat 1 (inl (Padded [B] samples (repeat [1%R] (B * samples))))) (repeat samples B) = Some (Ok (Feat u (inr (map scores js))))) /\
      exists accuracy,
        validation loss (fun i => call fuel (draws i) B) g samples gdraws =
          Some (Ok (mean (map (fun j => loss (probabilities (scores j)) (nth j ls 0)) (seq 0 (length clouds))), accuracy)) /\
        fraction (length clouds) (fun j => predicted (scores j) (nth j ls 0)) accuracy.
Proof.
  intros eps feature_sizes sample_radii conv_radii name t mode vars ow ob net bn drop dw db samples clouds u HM Hne HLc Hname Hpos H1 En Hbn Hdrop Hone call.
  assert (H0 : 0 < length sample_radii) by (destruct sample_radii; [congruence|cbn; lia]).
  set (c := match t with TPT => 2 | _ => 1 end). assert (C1 : 1 <= c) by (destruct t; cbn; lia). assert (C2 : t = TPT -> 2 <= c) by (intros ->; cbn; lia).
  destruct (end_to_end call eps samples u clouds (sample_radii ++ conv_radii) c) as (scores & X).
  - rewrite Forall_forall in Hpos. apply Hpos, nth_In. destruct feature_sizes; [discriminate|cbn; lia].
  - exact C1.
  - intros B fuel draws js e j HcB HT Hjs Fjs Hf He Ej.
    assert (Hj : j < length clouds). { rewrite <- Ej. rewrite Forall_forall in Fjs. apply Fjs, nth_In. lia. }
    assert (HT2 := test_less c _ _ _ _ _ HT (conj C1 HcB)).
    assert (F2 : Forall (fun j => j < length clouds) (repeat j c)) by (now apply all_repeat).
    assert (I1 : incl sample_radii (sample_radii ++ conv_radii)) by (apply incl_appl, incl_refl).
    assert (I2 : incl conv_radii (sample_radii ++ conv_radii)) by (apply incl_appr, incl_refl).
    assert (S1 := batch_search eps c samples clouds _ (repeat j c) HT2 (repeat_length _ _) F2 conv_radii I2).
    assert (S2 := batch_search eps B samples clouds _ js HT Hjs Fjs conv_radii I2).
    rewrite HLc in S1, S2.
    assert (F1 : forall n, Forall (fun row : list R => length row = nth 0 feature_sizes 0) (repeat [1%R] n)).
    { intros n. apply Forall_forall. intros x Hx. apply repeat_spec in Hx. rewrite Hx, H1. reflexivity. }
    destruct (C60_small_proof eps feature_sizes sample_radii conv_radii name t mode vars ow ob net bn drop dw db
      c samples (batch_points samples clouds (repeat j c)) (repeat samples c) (repeat [1%R] (c * samples)) (c * samples) (fun _ _ => 0) 0
      B samples (batch_points samples clouds js) (repeat samples B) (repeat [1%R] (B * samples)) fuel draws e (seq 0 samples) (fun _ => 0%Q)
      HM H0 Hname (fun E => conj (C2 E) (Nat.le_trans _ _ _ (C2 E) HcB)) Hpos En Hbn Hdrop
      (batch_ready eps c samples clouds _ (repeat j c) HT2 (repeat_length _ _) F2 sample_radii mode (c * samples) I1 HM (le_n _)) S1 (repeat_length _ _) (F1 _)
      (batch_ready eps B samples clouds _ js HT Hjs Fjs sample_radii mode fuel I1 HM Hf) S2 (repeat_length _ _) (F1 _))
      as (l & l2 & X1 & X2 & X3 & X4 & X5).
    + intros r Hr. apply (nth_error_nth _ _ 0%Q) in Hr. assert (Er : last sample_radii 0%Q = r).
      { rewrite <- Hr. clear. induction sample_radii as [|x [|y l] IH]; [reflexivity|reflexivity|]. change (last (x :: y :: l) 0%Q) with (last (y :: l) 0%Q). rewrite IH. cbn. now rewrite Nat.sub_0_r. }
      rewrite Er in Hone. split.
      * exact (batch_one eps c samples clouds _ (repeat j c) HT2 (repeat_length _ _) F2 r mode HM Hone).
      * exact (batch_one eps B samples clouds _ js HT Hjs Fjs r mode HM Hone).
    + lia.
    + exact He.
    + exact (batch_same c samples clouds B js e j eps _ (conj C1 HcB) HT Hjs Fjs He Ej Hj).
    + rewrite nth_repeat_lt by lia. intros k Hk. rewrite seq_nth by auto. rewrite !nth_repeat_lt by nia. reflexivity.
    + exists l, l2. rewrite H1 in X1, X2. split; [exact X1|]. split; [exact X2|]. auto.
  - exists scores. intros B fuel ls g loss draws gdraws HB HT. apply X; [|exact HT]. destruct HT. unfold c. destruct t; auto.
Qed.

(** C62. The network of modelnet40.py: the same statement; the last radius is
    arbitrary. *)
Lemma C62_large_proof :
  forall eps feature_sizes pool_radii conv_radii name t mode iv sv bv net bns bnb bn drop dw db samples clouds,
    let u := nth (length feature_sizes - 1) feature_sizes 0 in
    means mode average_names -> pool_radii <> [] -> length conv_radii = length pool_radii -> conv_named name t ->
    (forall i, i < length pool_radii -> 4 <= nth i feature_sizes 0) -> 1 <= u ->
    mk_large feature_sizes pool_radii conv_radii name mode iv sv bv = Ok net ->
    (forall i k, rowwise (bns i k)) -> (forall i k, rowwise (bnb i k)) -> (forall k, rowwise (bn k)) -> (forall k, rowwise (drop k)) ->
    let call := large_call GPU eps (find_neighbors_tf GPU) (compute_pdf_tf GPU) net bns bnb bn drop dw db in
    exists scores : nat -> list R, forall B fuel ls g loss draws gdraws,
      (t = TPT -> 2 <= B) -> test_set eps B samples clouds (pool_radii ++ conv_radii) -> B * samples <= fuel -> length ls = length clouds -> length clouds mod B = 0 ->
      in_use clouds ls B false samples g ->
      (forall i js, length js = B -> Forall (fun j => j < length clouds) js ->
         call fuel (draws i) B (Padded [B] samples (concat (map (fun j => firstn samples (nth j clouds [])) js)))
           (Feat 1 (inl (Padded [B] samples (repeat [1%R] (B * samples))))) (repeat samples B) = Some (Ok (Feat u (inr (map scores js))))) /\
      exists accuracy,
        validation loss (fun i => call fuel (draws i) B) g samples gdraws =
          Some (Ok (mean (map (fun j => loss (probabilities (scores j)) (nth j ls 0)) (seq 0 (length clouds))), accuracy)) /\
        fraction (length clouds) (fun j => predicted (scores j) (nth j ls 0)) accuracy.
Proof.
  intros eps feature_sizes pool_radii conv_radii name t mode iv sv bv net bns bnb bn drop dw db samples clouds u HM Hne HLc Hname Hch Hu En Hbns Hbnb Hbn Hdrop call.
  assert (H0 : 0 < length pool_radii) by (destruct pool_radii; [congruence|cbn; lia]).
  set (c := match t with TPT => 2 | _ => 1 end). assert (C1 : 1 <= c) by (destruct t; cbn; lia). assert (C2 : t = TPT -> 2 <= c) by (intros ->; cbn; lia).
  destruct (end_to_end call eps samples u clouds (pool_radii ++ conv_radii) c) as (scores & X).
  - exact Hu.
  - exact C1.
  - intros B fuel draws js e j HcB HT Hjs Fjs Hf He Ej.
    assert (Hj : j < length clouds). { rewrite <- Ej. rewrite Forall_forall in Fjs. apply Fjs, nth_In. lia. }
    assert (HT2 := test_less c _ _ _ _ _ HT (conj C1 HcB)).
    assert (F2 : Forall (fun j => j < length clouds) (repeat j c)) by (now apply all_repeat).
    assert (I1 : incl pool_radii (pool_radii ++ conv_radii)) by (apply incl_appl, incl_refl).
    assert (I2 : incl conv_radii (pool_radii ++ conv_radii)) by (apply incl_appr, incl_refl).
    assert (S1 := batch_search eps c samples clouds _ (repeat j c) HT2 (repeat_length _ _) F2 conv_radii I2).
    assert (S2 := batch_search eps B samples clouds _ js HT Hjs Fjs conv_radii I2).
    rewrite HLc in S1, S2.
    assert (F1 : forall n, Forall (fun row : list R => length row = 1) (repeat [1%R] n)).
    { intros n. apply Forall_forall. intros x Hx. apply repeat_spec in Hx. rewrite Hx. reflexivity. }
    destruct (C60_large_proof eps feature_sizes pool_radii conv_radii name t mode iv sv bv net bns bnb bn drop dw db
      c samples (batch_points samples clouds (repeat j c)) (repeat samples c) (repeat [1%R] (c * samples)) (c * samples) (fun _ _ => 0) 0
      B samples (batch_points samples clouds js) (repeat samples B) (repeat [1%R] (B * samples)) fuel draws e (seq 0 samples) (fun _ => 0%Q) 1%R
      HM H0 Hname (fun E => conj (C2 E) (Nat.le_trans _ _ _ (C2 E) HcB)) Hch En Hbns Hbnb Hbn Hdrop
      (batch_ready eps c samples clouds _ (repeat j c) HT2 (repeat_length _ _) F2 pool_radii mode (c * samples) I1 HM (le_n _)) S1 (repeat_length _ _) (F1 _)
      (batch_ready eps B samples clouds _ js HT Hjs Fjs pool_radii mode fuel I1 HM Hf) S2 (repeat_length _ _) (F1 _))
      as (l & l2 & X1 & X2 & X3 & X4 & X5).
    + lia.
    + exact He.
    + exact (batch_same c samples clouds B js e j eps _ (conj C1 HcB) HT Hjs Fjs He Ej Hj).
    + rewrite nth_repeat_lt by lia. intros k Hk. rewrite !nth_repeat_lt by nia. auto.
    + exists l, l2. split; [exact X1|]. split; [exact X2|]. auto.
  - exists scores. intros B fuel ls g loss draws gdraws HB HT. apply X; [|exact HT]. destruct HT. unfold c. destruct t; auto.
Qed.

(** ** A batch size that does not divide the number of models *)
Lemma relabelled_length j k ls : j < length ls -> length (relabelled j k ls) = length ls.
Proof. intros H. unfold relabelled. rewrite app_length, firstn_length. cbn [length]. rewrite skipn_length. lia. Qed.
Lemma relabelled_nth j k ls i : j < length ls -> nth i (relabelled j k ls) 0 = if i =? j then k else nth i ls 0.
Proof.
  intros H. unfold relabelled. assert (L : length (firstn j ls) = j) by (rewrite firstn_length; lia).
  destruct (Nat.eqb_spec i j) as [->|Hn]; [now rewrite app_nth2, L, Nat.sub_diag by lia|].
  destruct (Nat.lt_ge_cases i j) as [X|X].
  - rewrite app_nth1 by lia. exact (nth_firstn_skipn ls j 0 i 0 X).
  - rewrite app_nth2, L by lia. replace (i - j) with (S (i - S j)) by lia. cbn [nth]. rewrite nth_skipn'. f_equal. lia.
Qed.
Lemma fraction_count N (h : nat -> bool) P a : (forall j, j < N -> (h j = true <-> P j)) -> fraction N P a -> a = (INR (length (filter h (seq 0 N))) / INR N)%R.
Proof.
  intros HH (l & ND & HI & ->). f_equal. f_equal. apply Permutation_length, NoDup_Permutation; [exact ND|apply NoDup_filter, seq_NoDup|].
  intros j. rewrite filter_In, in_seq, HI. split; intros (A & B); (split; [lia|]); apply HH; auto; lia.
Qed.
(** C62. If the batch size does not divide the number of models, some model never
    counts: the validation returns the same values whatever its label is, so the
    accuracy is not the fraction of correct predictions. *)
Lemma C62_remainder_refuted_proof :
  forall points ls B samples perm,
    B <> 0 -> length points mod B <> 0 -> length ls = length points -> Forall (fun m => samples <= length m) points ->
    Permutation perm (seq 0 (length points)) ->
    exists j, j < length points /\
      (forall loss network k draws,
         validation loss network (new_generator points (relabelled j k ls) B false perm) samples draws =
         validation loss network (new_generator points ls B false perm) samples draws) /\
      forall scores accuracy, 2 <= length (scores j) -> exists k, k < length (scores j) /\
        ~ fraction (length points) (fun i => predicted (scores i) (nth i (relabelled j k ls) 0)) accuracy.
Proof.
  intros points ls B samples perm HB HM HL HS HP. set (N := length points) in *. set (n := N / B).
  assert (Hn : n * B < N) by (unfold n; pose proof (Nat.div_mod N B HB); lia).
  assert (LP : length perm = N) by (rewrite (Permutation_length HP); apply seq_length).
  set (j := nth (n * B) perm 0). assert (Hj : j < N).
  { assert (I : In j (seq 0 N)) by (apply (Permutation_in _ HP), nth_In; lia). apply in_seq in I. lia. }
  exists j. split; [exact Hj|]. split.
  - intros loss network k draws. unfold validation.
    assert (G1 : in_use points ls B false samples (new_generator points ls B false perm)) by (constructor; exact HP).
    assert (G2 : in_use points (relabelled j k ls) B false samples (new_generator points (relabelled j k ls) B false perm)) by (constructor; exact HP).
    assert (HL2 : length (relabelled j k ls) = length points) by (rewrite relabelled_length; [exact HL|rewrite HL; exact Hj]).
    assert (E : iterate (new_generator points (relabelled j k ls) B false perm) samples draws = iterate (new_generator points ls B false perm) samples draws).
    { unfold iterate, num_batches. cbn [batch models new_generator on_epoch_end]. destruct (Nat.eqb_spec B 0); [congruence|]. cbn [bind]. fold N. fold n.
      rewrite (get_items_ok _ samples draws (fun i => Batch (map (the_slot points ls B samples false (new_generator points ls B false perm) draws i) (seq 0 B)) (repeat (repeat [1%Q] samples) B))).
      - symmetry. apply get_items_ok. intros i Hi. apply in_seq in Hi. apply (get_item_ok points ls B samples false _ HB HL HS G1). fold N. fold n. lia.
      - intros i Hi. apply in_seq in Hi. rewrite (get_item_ok points (relabelled j k ls) B samples false _ HB HL2 HS G2) by (fold N; fold n; lia).
        do 2 f_equal. apply map_ext_in. intros b Hb. apply in_seq in Hb. unfold the_slot. f_equal. cbn [order new_generator on_epoch_end].
        rewrite relabelled_nth by (rewrite HL; exact Hj). destruct (Nat.eqb_spec (nth (i * B + b) perm 0) j) as [X|_]; [exfalso|reflexivity].
        assert (ND : NoDup perm) by (apply (Permutation_NoDup (Permutation_sym HP)), seq_NoDup). assert (i * B + b < n * B) by nia.
        assert (i * B + b = n * B); [|lia]. apply (proj1 (NoDup_nth perm 0) ND); [lia|lia|exact X]. }
    rewrite E. reflexivity.
  - intros scores a Hu. set (k0 := argmax (scores j)). assert (N0 : scores j <> []) by (intros X; rewrite X in Hu; cbn in Hu; lia).
    pose proof (argmax_ok _ N0) as P0. fold k0 in P0. set (k1 := if k0 =? 0 then 1 else 0).
    assert (K1 : k1 <> k0 /\ k1 < length (scores j)) by (unfold k1; destruct (Nat.eqb_spec k0 0); lia).
    set (h := fun k i => argmax (softmax (scores i)) =? nth i (relabelled j k ls) 0).
    set (hb := fun k i => negb (match scores i with [] => true | _ => false end) && h k i).
    assert (HH : forall k i, i < N -> (hb k i = true <-> predicted (scores i) (nth i (relabelled j k ls) 0))).
    { intros k i Hi. unfold hb, h. destruct (scores i) as [|x r] eqn:E; [cbn; split; [discriminate|intros (X & _); cbn in X; lia]|].
      cbn [negb andb]. apply argmax_hit. discriminate. }
    assert (C : length (filter (hb k0) (seq 0 N)) = S (length (filter (hb k1) (seq 0 N)))).
    { assert (EH : forall i, i < N -> i <> j -> hb k0 i = hb k1 i).
      { intros i Hi Hne. unfold hb, h. rewrite !relabelled_nth by (rewrite HL; exact Hj). destruct (Nat.eqb_spec i j); [congruence|reflexivity]. }
      assert (E0 : hb k0 j = true) by (apply HH; auto; rewrite relabelled_nth by (rewrite HL; exact Hj); rewrite Nat.eqb_refl; exact P0).
      assert (E1 : hb k1 j = false).
      { destruct (hb k1 j) eqn:X; [exfalso|reflexivity]. apply HH in X; [|exact Hj]. rewrite relabelled_nth, Nat.eqb_refl in X by (rewrite HL; exact Hj).
        apply (proj1 K1). exact (predicted_unique _ _ _ X P0). }
      replace N with (j + S (N - S j)) by lia. rewrite seq_app, !filter_app, !app_length. cbn [seq filter Nat.add]. rewrite E0, E1. cbn [length].
      rewrite (filter_ext_in (hb k0) (hb k1) (seq 0 j)) by (intros i Hi; apply in_seq in Hi; apply EH; lia).
      rewrite (filter_ext_in (hb k0) (hb k1) (seq (S j) _)) by (intros i Hi; apply in_seq in Hi; apply EH; lia). lia. }
    destruct (Req_dec a (INR (length (filter (hb k0) (seq 0 N))) / INR N)%R) as [EA|NA].
    + exists k1. split; [apply K1|]. intros X. apply (fraction_count N (hb k1)) in X; [|intros i Hi; now apply HH]. rewrite EA, C, S_INR in X.
      assert (IN : (0 < INR N)%R) by (apply lt_0_INR; lia). apply (f_equal (fun x => (x * INR N)%R)) in X. field_simplify in X; lra.
    + exists k0. split; [apply P0|]. intros X. apply NA. apply (fraction_count N (hb k0)) in X; [exact X|]. intros i Hi. now apply HH.
Qed.

(** ** Examples *)
(** A network that takes the coordinates of the first point of every cloud as
    scores. *)
Definition ex62_network (samples : nat) (i : nat) (p : padded point) (f : feat) (sizes : list nat) : option (result feat) :=
  Some (Ok (Feat 2 (inr (map (fun b => let x := nth (b * samples) (prows p) [] in [Q2R (nth 0 x 0%Q); Q2R (nth 1 x 0%Q)]) (seq 0 (length sizes)))))).
Definition ex62_points : list (list point) := [[[1; 0]; [0; 0]]; [[0; 1]; [0; 0]]; [[2#1; 1]; [7#1; 0]]; [[0; 3#1]; [0; 0]]]%Q.
Definition ex62_scores (j : nat) : list R := nth j [[1; 0]; [0; 1]; [2; 1]; [0; 3]]%R [].
Lemma ex62_q (n : Z) : Q2R (n # 1) = IZR n.
Proof. unfold Q2R. cbn. lra. Qed.
Lemma ex62_perm : Permutation [2; 0; 3; 1] (seq 0 4).
Proof. apply NoDup_Permutation; [repeat (constructor; [cbn; intuition lia|]); constructor|apply seq_NoDup|]. intros x. cbn. intuition lia. Qed.
(** Four models, two of them per batch, a shuffle; three predictions are right. *)
Example C62_validation_ex_proof :
  let g := new_generator ex62_points [0; 1; 1; 1] 2 false [2; 0; 3; 1] in
  exists accuracy,
    validation (fun p l => nth l p 0%R) (ex62_network 2) g 2 (fun _ _ => []) =
      Some (Ok (mean (map (fun j => probability (nth j [[1; 0]; [0; 1]; [2; 1]; [0; 3]]%R []) (nth j [0; 1; 1; 1] 0)) [0; 1; 2; 3]), accuracy)) /\
    accuracy = (3 / 4)%R.
Proof.
  cbv zeta. destruct (C62_validation_proof (fun p l => nth l p 0%R) (ex62_network 2) ex62_points [0; 1; 1; 1] 2 2 2 (new_generator ex62_points [0; 1; 1; 1] 2 false [2; 0; 3; 1])
    (fun _ _ => []) ex62_scores ltac:(lia) ltac:(reflexivity) ltac:(reflexivity)) as (a & E & F).
  - repeat (constructor; [cbn; lia|]). constructor.
  - constructor. exact ex62_perm.
  - lia.
  - intros j Hj. change (j < 4) in Hj. do 4 (destruct j as [|j]; [reflexivity|]). lia.
  - intros i js HL HF. change (length ex62_points) with 4 in HF. destruct js as [|j0 [|j1 [|? ?]]]; try discriminate. inversion HF as [|? ? H0 HF']; subst. inversion HF' as [|? ? H1 _]; subst.
    do 4 (destruct j0 as [|j0]; [do 4 (destruct j1 as [|j1]; [unfold ex62_network, ex62_scores; cbn -[Q2R]; rewrite !ex62_q; reflexivity|]); lia|]). lia.
  - exists a. split.
    + rewrite E. reflexivity.
    + apply (fraction_count 4 (fun j => nth j [true; true; false; true] false)) in F; [rewrite F; cbn; lra|].
      assert (H01 : forall x y : R, (x < y)%R -> predicted [x; y] 1).
      { intros x y H. split; [cbn; lia|]. split; intros j Hj; [do 2 (destruct j as [|j]; [cbn; lra|]); cbn in Hj; lia|]. destruct j as [|j]; [cbn; lra|lia]. }
      assert (H10 : forall x y : R, (y <= x)%R -> predicted [x; y] 0).
      { intros x y H. split; [cbn; lia|]. split; intros j Hj; [|lia]. do 2 (destruct j as [|j]; [cbn; lra|]); cbn in Hj; lia. }
      intros j Hj. destruct j as [|[|[|[|j]]]]; [| | | |lia]; unfold ex62_scores; cbn [nth].
      * split; [intros _; apply H10; lra|reflexivity].
      * split; [intros _; apply H01; lra|reflexivity].
      * split; [discriminate|]. intros X. assert (Y := predicted_unique _ _ _ X (H10 2 1 ltac:(lra))%R). discriminate.
      * split; [intros _; apply H01; lra|reflexivity].
Qed.

Definition ex62_clouds : list (list point) :=
  [[[0; 0; 0]; [2#1; 0; 0]; [9#1; 9#1; 9#1]]; [[0; 1; 0]; [1; 1; 1]]; [[5#1; 0; 0]; [4#1; 0; 1]]; [[0; 0; 0]; [0; 0; 2#1]]]%Q.
Lemma ex62_set B : B = 2 \/ B = 4 -> test_set (1#1000) B 2 ex62_clouds ([1#1; 4#1] ++ [1#1; 4#1])%Q /\ forall d, d < 3 -> extent (1#1000) 2 ex62_clouds (4#1)%Q d 1.
Proof.
  intros HB. assert (X1 : forall d, d < 3 -> extent (1#1000) 2 ex62_clouds (1#1)%Q d 3).
  { intros d Hd c x y Hc Hx Hy. cbn in Hc. destruct Hc as [<-|[<-|[<-|[<-|[]]]]]; cbn in Hx, Hy; (destruct Hx as [<-|[<-|[]]]); (destruct Hy as [<-|[<-|[]]]);
      (do 3 (destruct d as [|d]; [vm_compute; discriminate|]); lia). }
  assert (X2 : forall d, d < 3 -> extent (1#1000) 2 ex62_clouds (4#1)%Q d 1).
  { intros d Hd c x y Hc Hx Hy. cbn in Hc. destruct Hc as [<-|[<-|[<-|[<-|[]]]]]; cbn in Hx, Hy; (destruct Hx as [<-|[<-|[]]]); (destruct Hy as [<-|[<-|[]]]);
      (do 3 (destruct d as [|d]; [vm_compute; discriminate|]); lia). }
  split; [|exact X2]. constructor.
  - repeat (constructor; [split; [cbn; lia|repeat (constructor; [reflexivity|]); constructor]|]). constructor.
  - lia.
  - lia.
  - destruct HB as [->| ->]; reflexivity.
  - split; [reflexivity|vm_compute; discriminate].
  - assert (R1 : (0 < 1#1)%Q /\ exists nc : list Z, length nc = 3 /\ (Z.of_nat B * product nc <= 2 ^ 31)%Z /\
      forall d, d < 3 -> (1 <= nth d nc 0)%Z /\ extent (1#1000) 2 ex62_clouds (1#1) d (nth d nc 0%Z)).
    { split; [reflexivity|]. exists [3; 3; 3]%Z. split; [reflexivity|]. split; [destruct HB as [->| ->]; vm_compute; discriminate|].
      intros d Hd. replace (nth d [3; 3; 3]%Z 0%Z) with 3%Z by (do 3 (destruct d as [|d]; [reflexivity|]); lia). split; [lia|auto]. }
    assert (R4 : (0 < 4#1)%Q /\ exists nc : list Z, length nc = 3 /\ (Z.of_nat B * product nc <= 2 ^ 31)%Z /\
      forall d, d < 3 -> (1 <= nth d nc 0)%Z /\ extent (1#1000) 2 ex62_clouds (4#1) d (nth d nc 0%Z)).
    { split; [reflexivity|]. exists [1; 1; 1]%Z. split; [reflexivity|]. split; [destruct HB as [->| ->]; vm_compute; discriminate|].
      intros d Hd. replace (nth d [1; 1; 1]%Z 0%Z) with 1%Z by (do 3 (destruct d as [|d]; [reflexivity|]); lia). split; [lia|auto]. }
    exact (Forall_cons _ R1 (Forall_cons _ R4 (Forall_cons _ R1 (Forall_cons _ R4 (Forall_nil _))))).
Qed.
Lemma ex62_id : rowwise (fun X => X).
Proof. exists (fun row => row). split; [reflexivity|]. intros X. now rewrite map_id. Qed.
(** Four models in four batches of one or in one batch of four, and any labels: the
    same result. *)
Example C62_small_ex_proof :
  forall vars ow ob dw db loss ls, length ls = 4 ->
    exists net, mk_small [1; 8; 8; 8; 3] [1#1; 4#1]%Q [1#1; 4#1]%Q "MCConv" "cell average" vars ow ob = Ok net /\
    exists l accuracy accuracy',
      validation loss (fun i => small_call GPU (1#1000) (find_neighbors_tf GPU) (compute_pdf_tf GPU) net (fun _ X => X) (fun _ X => X) dw db 8 (fun _ _ => i) 1)
        (new_generator ex62_clouds ls 1 false [2; 0; 3; 1]) 2 (fun _ _ => []) = Some (Ok (l, accuracy)) /\
      validation loss (fun i => small_call GPU (1#1000) (find_neighbors_tf GPU) (compute_pdf_tf GPU) net (fun _ X => X) (fun _ X => X) dw db 8 (fun _ _ => i) 4)
        (new_generator ex62_clouds ls 4 false (seq 0 4)) 2 (fun _ _ => []) = Some (Ok (l, accuracy')) /\
      accuracy = accuracy' /\ (0 <= accuracy <= 1)%R.
Proof.
  intros vars ow ob dw db loss ls HL. destruct (ex58_net _ _ "cell average" vars ow ob (or_intror (or_introl eq_refl))) as (net & En).
  exists net. split; [exact En|]. destruct (ex62_set 2 (or_introl eq_refl)) as (T2 & X). destruct (ex62_set 4 (or_intror eq_refl)) as (T4 & _).
  pose proof (test_less 1 _ _ _ _ _ T2 ltac:(lia)) as T1.
  destruct (C62_small_proof (1#1000) [1; 8; 8; 8; 3] [1#1; 4#1]%Q [1#1; 4#1]%Q "MCConv" TMC "cell average" vars ow ob net (fun _ X => X) (fun _ X => X) dw db 2 ex62_clouds
    ltac:(apply means_average; cbn; tauto) ltac:(discriminate) eq_refl (or_introl (conj eq_refl eq_refl)) ltac:(repeat constructor) eq_refl En (fun _ => ex62_id) (fun _ => ex62_id) X) as (scores & S).
  destruct (S 1 8 ls (new_generator ex62_clouds ls 1 false [2; 0; 3; 1]) loss (fun i _ _ => i) (fun _ _ => []) ltac:(discriminate) T1 ltac:(lia) HL ltac:(reflexivity) ltac:(constructor; exact ex62_perm)) as (_ & a & E & F).
  destruct (S 4 8 ls (new_generator ex62_clouds ls 4 false (seq 0 4)) loss (fun i _ _ => i) (fun _ _ => []) ltac:(discriminate) T4 ltac:(lia) HL ltac:(reflexivity) ltac:(constructor; reflexivity)) as (_ & a' & E' & F').
  eexists _, a, a'. split; [exact E|]. split; [exact E'|].
  destruct F as (l & ND & I & ->). destruct F' as (l' & ND' & I' & ->). assert (PL : length l = length l').
  { apply Permutation_length, NoDup_Permutation; auto. intros j. now rewrite I, I'. }
  rewrite PL. split; [reflexivity|]. change (length ex62_clouds) with 4 in *.
  assert (LE : length l' <= 4). { rewrite <- (seq_length 4 0). apply NoDup_incl_length; [exact ND'|]. intros j Hj. apply I' in Hj. apply in_seq. lia. }
  apply le_INR in LE. pose proof (pos_INR (length l')) as P0. replace (INR 4) with 4%R in * by (cbn; lra). lra.
Qed.
Example C62_large_ex_proof :
  forall iv sv bv dw db loss ls, length ls = 4 ->
    exists net, mk_large [4; 8; 8; 3] [1#1; 4#1]%Q [1#1; 4#1]%Q "MCConv" "cell average" iv sv bv = Ok net /\
    exists l accuracy,
      validation loss (fun i => large_call GPU (1#1000) (find_neighbors_tf GPU) (compute_pdf_tf GPU) net (fun _ _ X => X) (fun _ _ X => X) (fun _ X => X) (fun _ X => X) dw db 8 (fun _ _ => i) 2)
        (new_generator ex62_clouds ls 2 false [2; 0; 3; 1]) 2 (fun _ _ => []) = Some (Ok (l, accuracy)).
Proof.
  intros iv sv bv dw db loss ls HL. destruct (ex62_set 2 (or_introl eq_refl)) as (T2 & X).
  assert (En : exists net, mk_large [4; 8; 8; 3] [1#1; 4#1]%Q [1#1; 4#1]%Q "MCConv" "cell average" iv sv bv = Ok net) by (eexists; unfold mk_large; cbn; reflexivity).
  destruct En as (net & En). exists net. split; [exact En|].
  destruct (C62_large_proof (1#1000) [4; 8; 8; 3] [1#1; 4#1]%Q [1#1; 4#1]%Q "MCConv" TMC "cell average" iv sv bv net (fun _ _ X => X) (fun _ _ X => X) (fun _ X => X) (fun _ X => X) dw db 2 ex62_clouds
    ltac:(apply means_average; cbn; tauto) ltac:(discriminate) eq_refl (or_introl (conj eq_refl eq_refl))
    ltac:(intros i Hi; cbn [length] in Hi; destruct i as [|[|i]]; [cbn; lia|cbn; lia|lia]) ltac:(cbn; lia) En
    (fun _ _ => ex62_id) (fun _ _ => ex62_id) (fun _ => ex62_id) (fun _ => ex62_id)) as (scores & S).
  destruct (S 2 8 ls (new_generator ex62_clouds ls 2 false [2; 0; 3; 1]) loss (fun i _ _ => i) (fun _ _ => []) ltac:(discriminate) T2 ltac:(lia) HL ltac:(reflexivity) ltac:(constructor; exact ex62_perm)) as (_ & a & E & F).
  eexists _, a. exact E.
Qed.
(** Three models in batches of two: the label of the last model of the shuffle does
    not matter. *)
Example C62_remainder_ex_proof :
  length (firstn 3 ex62_points) mod 2 <> 0 /\
  forall loss network k,
    validation loss network (new_generator (firstn 3 ex62_points) [0; k; 1] 2 false [2; 0; 1]) 2 (fun _ _ => []) =
    validation loss network (new_generator (firstn 3 ex62_points) [0; 1; 1] 2 false [2; 0; 1]) 2 (fun _ _ => []).
Proof. split; [discriminate|]. intros loss network k. reflexivity. Qed.
(** Five models in batches of two, 21 epochs. *)
Example C63_rate_ex_proof :
  exists rates, training_rates (new_generator [[]; []; []; []; []] [0; 1; 2; 3; 4] 2 true (seq 0 5)) 21 = Ok rates /\
    nth_error rates 19 = Some (1 / 1000, [1 / 1000; 1 / 1000])%R /\ nth_error rates 20 = Some (7 / 10000, [7 / 10000; 7 / 10000])%R.
Proof.
  destruct (C63_rate_proof [[]; []; []; []; []] [0; 1; 2; 3; 4] 2 true 0 (new_generator [[]; []; []; []; []] [0; 1; 2; 3; 4] 2 true (seq 0 5)) 21
    ltac:(constructor; reflexivity) ltac:(lia) ltac:(cbn; lia)) as (rates & E & _ & H).
  exists rates. split; [exact E|]. split.
  - rewrite H by lia. change (19 / 20) with 0. change (length _ / 2) with 2. cbn [repeat pow]. replace (1 / 1000 * 1)%R with (1 / 1000)%R by lra. reflexivity.
  - rewrite H by lia. change (20 / 20) with 1. change (length _ / 2) with 2. cbn [repeat pow]. replace (1 / 1000 * (7 / 10 * 1))%R with (7 / 10000)%R by lra. reflexivity.
Qed.
