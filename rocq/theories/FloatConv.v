(** Point-wise convolution in float32 (pylib/pc/layers/Conv1x1.py). Layers.v models
    the same code over the reals. *)
From Coq Require Import List Arith ZArith Reals Bool Permutation.
From Flocq Require Import Core.
From Verif Require Import Tensor PointCloud RTensor Layers.
Import ListNotations.
Local Open Scope R_scope.

(** Rounding to float32, to nearest and ties to even; [f32] of Float.v is the same
    function on rational numbers (C54). Overflow is not modelled. *)
Definition r32 (x : R) : R := round radix2 (FLT_exp (-149) 24) ZnearestE x.

(** What a dot product can be computed as: products and sums are rounded, the
    order of the additions is arbitrary, and a product and an addition can be fused
    into one operation with one rounding. Simplification: no kernels with less than
    float32 precision (TF32). *)
Inductive dot32 : list (R * R) -> R -> Prop :=
| dot_one a b : dot32 [(a, b)] (r32 (a * b))
| dot_fused l l' a b s : Permutation l ((a, b) :: l') -> dot32 l' s -> dot32 l (r32 (a * b + s))
| dot_add l l1 l2 s1 s2 : Permutation l (l1 ++ l2) -> dot32 l1 s1 -> dot32 l2 s2 -> dot32 l (r32 (s1 + s2)).

(** [dot i j l] is what tf.matmul computes for entry [i], [j] of the product: the
    order of the additions can depend on the entry. *)
Definition dots32 (dot : nat -> nat -> list (R * R) -> R) : Prop := forall i j l, l <> [] -> dot32 l (dot i j l).

(** [tf.matmul] of two matrices, as [tmatmul] of RTensor.v. *)
Definition matmul32 (dot : nat -> nat -> list (R * R) -> R) (a b : ten) : result ten :=
  match tshape a, tshape b with
  | [m; k], [k'; n] =>
    if Nat.eqb k k'
    then Ok (ttab [m; n] (fun idx => match idx with
               | [i; j] => dot i j (map (fun l => (tget a [i; l], tget b [l; j])) (seq 0 k))
               | _ => 0 end))
    else Err InvalidArgument
  | _, _ => Err InvalidArgument
  end.

(** Conv1x1.py:65-101 __call__. *)
Definition conv1x1_call32 (dot : nat -> nat -> list (R * R) -> R) (l : conv1x1) (features : feat) (p : pc)
  (return_sorted return_padded : bool) : result feat :=
  f <- flat_features features p ;;
  m <- matmul32 dot f (c1_w l) ;;
  o <- tbin (fun x y => r32 (x + y)) m (c1_b l) ;;
  layer_output o p return_sorted return_padded.
