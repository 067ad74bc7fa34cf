(** Average pooling in float32 (pylib/pc/layers/Pooling.py). Layers.v and
    CudaLayers.v model the layers for any reduction of a segment. *)
From Coq Require Import List Arith ZArith QArith Reals Qreals Bool.
From Verif Require Import Tensor Float FloatNorm.
Import ListNotations.
Local Open Scope R_scope.

(** Pooling.py:93-96 and 243-246, tf.math.unsorted_segment_mean of one segment and
    one channel: the sum of the values, in any order and rounded after each
    addition, divided by the number of values, which is converted to float32; 0
    without values. Simplification: the order is a function of the values. *)
Definition averaging32 (red : list R -> R) : Prop :=
  red [] = 0 /\
  forall l : list Q, l <> [] -> exists s, sum32 l s /\
    red (map Q2R l) = Q2R (f32 (s / f32 (inject_Z (Z.of_nat (length l))))%Q).
