(** Model of the evaluation on the test set and of the learning rate of the
    training scripts (modelnet40.py:472-555, modelnet40_small.py:333-420).
    Gradients, the update of the weights and printing are not described. *)
From Coq Require Import List Arith ZArith QArith Reals Qreals Bool.
From Verif Require Import Tensor PointCloud Pdf RTensor Layers Generator.
Import ListNotations.
Local Open Scope nat_scope.

(** [tf.nn.softmax(logits, axis=-1)] of one row (modelnet40.py:537). *)
Definition softmax (row : list R) : list R := map (fun x => (exp x / rsum (map exp row))%R) row.

(** [tf.argmax]: the first position of the largest entry. *)
Fixpoint argmax_from (i : nat) (best : nat * R) (row : list R) : nat :=
  match row with
  | [] => fst best
  | x :: r => argmax_from (S i) (if Rlt_dec (snd best) x then (i, x) else best) r
  end.
Definition argmax (row : list R) : nat := match row with [] => 0 | x :: r => argmax_from 1 (0, x) r end.

(** The state of a keras metric: [tf.keras.metrics.Mean] and
    [SparseCategoricalAccuracy] (modelnet40.py:532-533); the result of a metric
    without values is 0. *)
Record metric := Metric { total : R; values : nat }.
Definition new_metric : metric := Metric 0 0.
Definition metric_result (m : metric) : R := if values m =? 0 then 0%R else (total m / INR (values m))%R.
Definition update_mean (v : R) (m : metric) : metric := Metric (total m + v) (S (values m)).
(** Both the accuracy and the loss need one row per label. *)
Definition update_accuracy (ls : list nat) (preds : list (list R)) (m : metric) : result metric :=
  if length ls =? length preds then
    Ok (Metric (total m + INR (length (filter (fun p => argmax (snd p) =? fst p) (combine ls preds)))) (values m + length ls))
  else Err InvalidArgument.

Section Evaluate.
  (** The loss of one prediction: [SparseCategoricalCrossentropy] is its mean over
      the rows of the batch (modelnet40.py:487, 538). *)
  Context (loss : list R -> nat -> R).
  Definition batch_loss (ls : list nat) (preds : list (list R)) : result R :=
    if length ls =? length preds then
      Ok (rsum (map (fun p => loss (snd p) (fst p)) (combine ls preds)) / INR (length ls))%R
    else Err InvalidArgument.

  (** The call of the network in inference mode; the number of the batch stands
      for the random numbers drawn in the call. *)
  Context (network : nat -> padded point -> feat -> list nat -> option (result feat)).

  (** The arguments of the call. The sizes are those of the generator,
      [np.ones([batch_size]) * samples_per_model] (modelnet40.py:416). *)
  Definition points_of (B samples : nat) (d : batch_data) : padded point := Padded [B] samples (concat (map fst (slots d))).
  Definition features_of (B samples : nat) (d : batch_data) : feat :=
    Feat 1 (inl (Padded [B] samples (map (map Q2R) (concat (ones d))))).

  (** modelnet40.py:535-540: the loop over the batches. *)
  Fixpoint evaluate (B samples i : nat) (ds : list batch_data) (l a : metric) : option (result (R * R)) :=
    match ds with
    | [] => Some (Ok (metric_result l, metric_result a))
    | d :: r =>
      match network i (points_of B samples d) (features_of B samples d) (repeat samples B) with
      | None => None
      | Some (Err e) => Some (Err e)
      | Some (Ok x) =>
        match frows x with
        | inl _ => Some (Err OutOfScope)
        | inr logits =>
          let preds := map softmax logits in
          let ls := map snd (slots d) in
          match batch_loss ls preds, update_accuracy ls preds a with
          | Ok v, Ok a' => evaluate B samples (S i) r (update_mean v l) a'
          | Err e, _ => Some (Err e)
          | _, Err e => Some (Err e)
          end
        end
      end
    end.
  (** modelnet40.py:531-542: loss and accuracy on the test set. *)
  Definition validation (g : generator) (samples : nat) (draws : nat -> nat -> list Q) : option (result (R * R)) :=
    match iterate g samples draws with
    | Err e => Some (Err e)
    | Ok ds => evaluate (batch g) samples 0 ds new_metric new_metric
    end.
End Evaluate.

(** ** Learning rate *)
(** [tf.keras.optimizers.schedules.ExponentialDecay] with [staircase=True]
    (modelnet40.py:478-482): the rate at a step. *)
Definition decayed (initial : R) (decay_steps : nat) (decay_rate : R) (step : nat) : R :=
  (initial * decay_rate ^ (step / decay_steps))%R.
Definition lr_decay (len : nat) : nat -> R := decayed (1 / 1000) (20 * len) (7 / 10).
(** modelnet40.py:499-525: the rate printed at the start of every epoch and those
    used in its steps; [iterations] is the counter of the optimizer, which every
    update advances. *)
Fixpoint epoch_steps (len iterations k : nat) : list R :=
  match k with 0 => [] | S k' => lr_decay len iterations :: epoch_steps len (S iterations) k' end.
Fixpoint learning_rates (len iterations epoch epochs : nat) : list (R * list R) :=
  match epochs with
  | 0 => []
  | S r => (lr_decay len (epoch * len), epoch_steps len iterations len) :: learning_rates len (iterations + len) (S epoch) r
  end.
(** The optimizer is new when the training starts. *)
Definition training_rates (g : generator) (epochs : nat) : result (list (R * list R)) :=
  len <- num_batches g ;; Ok (learning_rates len 0 0 epochs).
