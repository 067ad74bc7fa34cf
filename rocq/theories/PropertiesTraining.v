(** Evaluation and learning rate (C62, C63).
    Generated by tools/gen_props.py from TrainingProofs.v: statements only. *)
From Coq Require Import String List Arith ZArith QArith Reals Qreals Lia Lra Bool Permutation.
From Verif Require Import Tensor TensorFacts Spec SpecText TextFacts PointCloud SpecCloud CloudProofs QFacts SpecGrid
  Neighbors SpecNeighbors Sampling SpecSampling Hierarchy SpecHierarchy Pdf SpecPdf
  RTensor Kernels Layers SpecLayers Blocks SpecBlocks Classifier SpecClassifier ClassifierFacts ClassifierProofs
  SamplingProofs HierarchyProofs LayerLink SpecMatch MatchNet PredictionProofs SampleFacts Generator SpecGenerator GeneratorProofs Training SpecTraining TrainingFacts.
From Verif Require Import TrainingProofs.
Import ListNotations.
Local Open Scope nat_scope.

(** C63. In epoch [e] the learning rate is [0.001 * 0.7 ^ floor(e / 20)] in every
    of the [floor(N / B)] steps, which is the one that is printed. *)
Theorem C63_rate :
  forall points ls B aug samples g epochs,
    in_use points ls B aug samples g -> 0 < B -> B <= length points ->
    exists rates, training_rates g epochs = Ok rates /\ length rates = epochs /\
      forall e, e < epochs -> let r := (1 / 1000 * (7 / 10) ^ (e / 20))%R in
        nth_error rates e = Some (r, repeat r (length points / B)).
Proof. exact C63_rate_proof. Qed.
Print Assumptions C63_rate.

(** C62. A network that returns for every cloud of a batch the scores of that
    cloud: the validation returns the mean loss and the fraction of correct
    predictions over all models of the test set, whatever the generator drew
    and did before, if the batch size divides the number of models. *)
Theorem C62_validation :
  forall loss network points ls B samples u g draws scores,
    B <> 0 -> length points mod B = 0 -> length ls = length points -> Forall (fun m => samples <= length m) points ->
    in_use points ls B false samples g ->
    1 <= u -> (forall j, j < length points -> length (scores j) = u) ->
    (forall i js, length js = B -> Forall (fun j => j < length points) js ->
      network i (Padded [B] samples (concat (map (fun j => firstn samples (nth j points [])) js)))
        (Feat 1 (inl (Padded [B] samples (repeat [1%R] (B * samples))))) (repeat samples B) = Some (Ok (Feat u (inr (map scores js))))) ->
    exists accuracy,
      validation loss network g samples draws =
        Some (Ok (mean (map (fun j => loss (probabilities (scores j)) (nth j ls 0)) (seq 0 (length points))), accuracy)) /\
      fraction (length points) (fun j => predicted (scores j) (nth j ls 0)) accuracy.
Proof. exact C62_validation_proof. Qed.
Print Assumptions C62_validation.

(** C62. The network of modelnet40_small.py (inference, cell average sampling, one
    feature per point): every model of the test set has scores such that the
    network returns them for that model in every batch, and the validation
    returns the mean loss and the fraction of correct predictions over the whole
    test set. The scores depend neither on the batch size nor on the order in
    which the generator shows the models. *)
Theorem C62_small :
  forall eps feature_sizes sample_radii conv_radii name t mode vars ow ob net bn drop dw db samples clouds,
    let u := nth (length feature_sizes - 1) feature_sizes 0 in
    means mode average_names -> sample_radii <> [] -> length conv_radii = length sample_radii -> conv_named name t ->
    Forall (fun c => 0 < c) feature_sizes -> nth 0 feature_sizes 0 = 1 ->
    mk_small feature_sizes sample_radii conv_radii name mode vars ow ob = Ok net ->
    (forall k, rowwise (bn k)) -> (forall k, rowwise (drop k)) ->
    (forall d, d < 3 -> extent eps samples clouds (last sample_radii 0%Q) d 1) ->
    let call := small_call GPU eps (find_neighbors_tf GPU) (compute_pdf_tf GPU) net bn drop dw db in
    exists scores : nat -> list R, forall B fuel ls g loss draws gdraws,
      (t = TPT -> 2 <= B) -> test_set eps B samples clouds (sample_radii ++ conv_radii) -> B * samples <= fuel -> length ls = length clouds -> length clouds mod B = 0 ->
      in_use clouds ls B false samples g ->
      (forall i js, length js = B -> Forall (fun j => j < length clouds) js ->
         call fuel (draws i) B (Padded [B] samples (concat (map (fun j => firstn samples (nth j clouds [])) js)))
           (Feat 1 (inl (Padded [B] samples (repeat [1%R] (B * samples))))) (repeat samples B) = Some (Ok (Feat u (inr (map scores js))))) /\
      exists accuracy,
        validation loss (fun i => call fuel (draws i) B) g samples gdraws =
          Some (Ok (mean (map (fun j => loss (probabilities (scores j)) (nth j ls 0)) (seq 0 (length clouds))), accuracy)) /\
        fraction (length clouds) (fun j => predicted (scores j) (nth j ls 0)) accuracy.
Proof. exact C62_small_proof. Qed.
Print Assumptions C62_small.

(** C62. The network of modelnet40.py: the same statement; the last radius is
    arbitrary. *)
Theorem C62_large :
  forall eps feature_sizes pool_radii conv_radii name t mode iv sv bv net bns bnb bn drop dw db samples clouds,
    let u := nth (length feature_sizes - 1) feature_sizes 0 in
    means mode average_names -> pool_radii <> [] -> length conv_radii = length pool_radii -> conv_named name t ->
    (forall i, i < length pool_radii -> 4 <= nth i feature_sizes 0) -> 1 <= u ->
    mk_large feature_sizes pool_radii conv_radii name mode iv sv bv = Ok net ->
    (forall i k, rowwise (bns i k)) -> (forall i k, rowwise (bnb i k)) -> (forall k, rowwise (bn k)) -> (forall k, rowwise (drop k)) ->
    let call := large_call GPU eps (find_neighbors_tf GPU) (compute_pdf_tf GPU) net bns bnb bn drop dw db in
    exists scores : nat -> list R, forall B fuel ls g loss draws gdraws,
      (t = TPT -> 2 <= B) -> test_set eps B samples clouds (pool_radii ++ conv_radii) -> B * samples <= fuel -> length ls = length clouds -> length clouds mod B = 0 ->
      in_use clouds ls B false samples g ->
      (forall i js, length js = B -> Forall (fun j => j < length clouds) js ->
         call fuel (draws i) B (Padded [B] samples (concat (map (fun j => firstn samples (nth j clouds [])) js)))
           (Feat 1 (inl (Padded [B] samples (repeat [1%R] (B * samples))))) (repeat samples B) = Some (Ok (Feat u (inr (map scores js))))) /\
      exists accuracy,
        validation loss (fun i => call fuel (draws i) B) g samples gdraws =
          Some (Ok (mean (map (fun j => loss (probabilities (scores j)) (nth j ls 0)) (seq 0 (length clouds))), accuracy)) /\
        fraction (length clouds) (fun j => predicted (scores j) (nth j ls 0)) accuracy.
Proof. exact C62_large_proof. Qed.
Print Assumptions C62_large.

(** C62. If the batch size does not divide the number of models, some model never
    counts: the validation returns the same values whatever its label is, so the
    accuracy is not the fraction of correct predictions. *)
Theorem C62_remainder_refuted :
  forall points ls B samples perm,
    B <> 0 -> length points mod B <> 0 -> length ls = length points -> Forall (fun m => samples <= length m) points ->
    Permutation perm (seq 0 (length points)) ->
    exists j, j < length points /\
      (forall loss network k draws,
         validation loss network (new_generator points (relabelled j k ls) B false perm) samples draws =
         validation loss network (new_generator points ls B false perm) samples draws) /\
      forall scores accuracy, 2 <= length (scores j) -> exists k, k < length (scores j) /\
        ~ fraction (length points) (fun i => predicted (scores i) (nth i (relabelled j k ls) 0)) accuracy.
Proof. exact C62_remainder_refuted_proof. Qed.
Print Assumptions C62_remainder_refuted.

(** Four models, two of them per batch, a shuffle; three predictions are right. *)
Example C62_validation_ex :
  let g := new_generator ex62_points [0; 1; 1; 1] 2 false [2; 0; 3; 1] in
  exists accuracy,
    validation (fun p l => nth l p 0%R) (ex62_network 2) g 2 (fun _ _ => []) =
      Some (Ok (mean (map (fun j => probability (nth j [[1; 0]; [0; 1]; [2; 1]; [0; 3]]%R []) (nth j [0; 1; 1; 1] 0)) [0; 1; 2; 3]), accuracy)) /\
    accuracy = (3 / 4)%R.
Proof. exact C62_validation_ex_proof. Qed.

(** Four models in four batches of one or in one batch of four, and any labels: the
    same result. *)
Example C62_small_ex :
  forall vars ow ob dw db loss ls, length ls = 4 ->
    exists net, mk_small [1; 8; 8; 8; 3] [1#1; 4#1]%Q [1#1; 4#1]%Q "MCConv" "cell average" vars ow ob = Ok net /\
    exists l accuracy accuracy',
      validation loss (fun i => small_call GPU (1#1000) (find_neighbors_tf GPU) (compute_pdf_tf GPU) net (fun _ X => X) (fun _ X => X) dw db 8 (fun _ _ => i) 1)
        (new_generator ex62_clouds ls 1 false [2; 0; 3; 1]) 2 (fun _ _ => []) = Some (Ok (l, accuracy)) /\
      validation loss (fun i => small_call GPU (1#1000) (find_neighbors_tf GPU) (compute_pdf_tf GPU) net (fun _ X => X) (fun _ X => X) dw db 8 (fun _ _ => i) 4)
        (new_generator ex62_clouds ls 4 false (seq 0 4)) 2 (fun _ _ => []) = Some (Ok (l, accuracy')) /\
      accuracy = accuracy' /\ (0 <= accuracy <= 1)%R.
Proof. exact C62_small_ex_proof. Qed.

Example C62_large_ex :
  forall iv sv bv dw db loss ls, length ls = 4 ->
    exists net, mk_large [4; 8; 8; 3] [1#1; 4#1]%Q [1#1; 4#1]%Q "MCConv" "cell average" iv sv bv = Ok net /\
    exists l accuracy,
      validation loss (fun i => large_call GPU (1#1000) (find_neighbors_tf GPU) (compute_pdf_tf GPU) net (fun _ _ X => X) (fun _ _ X => X) (fun _ X => X) (fun _ X => X) dw db 8 (fun _ _ => i) 2)
        (new_generator ex62_clouds ls 2 false [2; 0; 3; 1]) 2 (fun _ _ => []) = Some (Ok (l, accuracy)).
Proof. exact C62_large_ex_proof. Qed.

(** Three models in batches of two: the label of the last model of the shuffle does
    not matter. *)
Example C62_remainder_ex :
  length (firstn 3 ex62_points) mod 2 <> 0 /\
  forall loss network k,
    validation loss network (new_generator (firstn 3 ex62_points) [0; k; 1] 2 false [2; 0; 1]) 2 (fun _ _ => []) =
    validation loss network (new_generator (firstn 3 ex62_points) [0; 1; 1] 2 false [2; 0; 1]) 2 (fun _ _ => []).
Proof. exact C62_remainder_ex_proof. Qed.

(** Five models in batches of two, 21 epochs. *)
Example C63_rate_ex :
  exists rates, training_rates (new_generator [[]; []; []; []; []] [0; 1; 2; 3; 4] 2 true (seq 0 5)) 21 = Ok rates /\
    nth_error rates 19 = Some (1 / 1000, [1 / 1000; 1 / 1000])%R /\ nth_error rates 20 = Some (7 / 10000, [7 / 10000; 7 / 10000])%R.
Proof. exact C63_rate_ex_proof. Qed.
