(** Training data generator (C48).
    Generated by tools/gen_props.py from GeneratorProofs.v: statements only. *)
From Coq Require Import List Arith ZArith QArith Lia Bool Permutation.
From Verif Require Import Tensor TensorFacts Generator SpecGenerator.
From Verif Require Import GeneratorProofs.
Import ListNotations.
Local Open Scope nat_scope.

(** C48. In every epoch, whatever was drawn and done before, the batches show
    [floor(N / B) * B] different models, each with its own label and constant
    features; if [B] divides [N] every model is shown. *)
Theorem C48_epoch :
  forall points ls B samples aug g draws,
    B <> 0 -> length ls = length points -> Forall (fun m => samples <= length m) points ->
    in_use points ls B aug samples g ->
    exists batches js,
      iterate g samples draws = Ok batches /\ length batches = length points / B /\
      NoDup js /\ length js = length points / B * B /\ Forall (fun j => j < length points) js /\
      (length points mod B = 0 -> Permutation js (seq 0 (length points))) /\
      forall i, i < length points / B -> exists d,
        nth_error batches i = Some d /\ length (slots d) = B /\ ones d = repeat (repeat [1%Q] samples) B /\
        forall b, b < B -> let j := nth (i * B + b) js 0 in
          nth_error (slots d) b = Some (shown aug samples (draws i b) (nth j points []), nth j ls 0).
Proof. exact C48_epoch_proof. Qed.
Print Assumptions C48_epoch.

(** C48. After a shuffle the successive calls give the batches of the epoch one
    after the other, and further calls raise an IndexError. *)
Theorem C48_calls :
  forall points ls B samples aug g draws perm k,
    B <> 0 -> length ls = length points -> Forall (fun m => samples <= length m) points ->
    in_use points ls B aug samples g -> Permutation perm (seq 0 (length points)) ->
    exists batches, iterate (on_epoch_end perm g) samples draws = Ok batches /\
      snd (calls k (on_epoch_end perm g) samples draws) =
        map Ok (firstn k batches) ++ repeat (Err IndexError) (k - length batches).
Proof. exact C48_calls_proof. Qed.
Print Assumptions C48_calls.

(** The training loops iterate over the generator without ending an epoch:
    without augmentation every epoch shows the same batches in the same order. *)
Theorem C48_never_reshuffled :
  forall points ls B samples g draws epochs,
    B <> 0 -> length ls = length points -> Forall (fun m => samples <= length m) points ->
    in_use points ls B false samples g ->
    exists batches, training_epochs epochs g samples draws = repeat (Ok batches) epochs.
Proof. exact C48_never_reshuffled_proof. Qed.
Print Assumptions C48_never_reshuffled.

Example C48_epoch_example :
  let g := new_generator ex_models [0; 1; 0; 2; 1] 2 false [3; 1; 4; 0; 2] in
  in_use ex_models [0; 1; 0; 2; 1] 2 false 1 g /\
  iterate g 1 (fun _ _ => []) = Ok [Batch [([[7%Q]], 2); ([[3%Q]], 1)] [[[1%Q]]; [[1%Q]]]; Batch [([[9%Q]], 1); ([[1%Q]], 0)] [[[1%Q]]; [[1%Q]]]].
Proof. exact C48_epoch_example_proof. Qed.

Example C48_calls_example :
  let g := new_generator ex_models [0; 1; 0; 2; 1] 2 false [3; 1; 4; 0; 2] in
  map (fun r => match r with Ok d => Some (map snd (slots d)) | Err _ => None end) (snd (calls 3 g 1 (fun _ _ => []))) = [Some [2; 1]; Some [1; 0]; None].
Proof. exact C48_calls_example_proof. Qed.

(** Three epochs. *)
Example C48_never_reshuffled_ex :
  let g := new_generator ex_models [0; 1; 0; 2; 1] 2 false [3; 1; 4; 0; 2] in
  in_use ex_models [0; 1; 0; 2; 1] 2 false 1 g /\ Forall (fun m => 1 <= length m) ex_models /\
  training_epochs 3 g 1 (fun _ _ _ => []) =
    repeat (Ok [Batch [([[7%Q]], 2); ([[3%Q]], 1)] [[[1%Q]]; [[1%Q]]]; Batch [([[9%Q]], 1); ([[1%Q]], 0)] [[[1%Q]]; [[1%Q]]]]) 3.
Proof. exact C48_never_reshuffled_ex_proof. Qed.
