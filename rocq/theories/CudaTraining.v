(** Model of the evaluation on the test set with the CUDA operations
    (modelnet40.py:531-542, modelnet40_small.py:402-416). As in Training.v; the
    call of the network is a predicate on postconditions, which holds if every
    execution succeeds and satisfies the postcondition. *)
From Coq Require Import List Arith ZArith QArith Reals Bool.
From Verif Require Import Tensor PointCloud Pdf RTensor Layers Generator Training.
Import ListNotations.
Local Open Scope nat_scope.

Section Evaluate.
  Context (loss : list R -> nat -> R).
  (** The call of the network for the batch with the given number. *)
  Context (network : nat -> padded point -> feat -> list nat -> (feat -> Prop) -> Prop).

  (** modelnet40.py:535-540: the loop over the batches. *)
  Fixpoint evaluate_gpu (B samples i : nat) (ds : list batch_data) (l a : metric) (P : R * R -> Prop) : Prop :=
    match ds with
    | [] => P (metric_result l, metric_result a)
    | d :: r =>
      network i (points_of B samples d) (features_of B samples d) (repeat samples B) (fun x =>
        match frows x with
        | inl _ => False
        | inr logits =>
          let preds := map softmax logits in
          let ls := map snd (slots d) in
          match batch_loss loss ls preds, update_accuracy ls preds a with
          | Ok v, Ok a' => evaluate_gpu B samples (S i) r (update_mean v l) a' P
          | _, _ => False
          end
        end)
    end.
  (** modelnet40.py:531-542: loss and accuracy on the test set. *)
  Definition validation_gpu (g : generator) (samples : nat) (draws : nat -> nat -> list Q) (P : R * R -> Prop) : Prop :=
    match iterate g samples draws with
    | Err _ => False
    | Ok ds => evaluate_gpu (batch g) samples 0 ds new_metric new_metric P
    end.
End Evaluate.
