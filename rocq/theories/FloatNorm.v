(** The distance that the fallback search compares with the radius, in float32. *)
From Coq Require Import List Arith ZArith QArith Bool Permutation.
From Verif Require Import Tensor PointCloud Grid Neighbors Float.
Import ListNotations.
Local Open Scope Q_scope.

(** A sum of numbers, with one rounding for every addition, in any order and with
    any placement of the parentheses: tf.reduce_sum inside tf.linalg.norm
    (custom_ops_tf.py:196) does not promise one. *)
Inductive sum32 : list Q -> Q -> Prop :=
| sum32_one x : sum32 [x] x
| sum32_add l l1 l2 a b : Permutation l (l1 ++ l2) -> sum32 l1 a -> sum32 l2 b -> sum32 l (f32 (a + b)).

(** [v] is a number of float32 as near to the square root of [s] as any other. To
    be read without square roots: [s] lies below the square of the middle of [v]
    and a larger number, and above that of [v] and a smaller one. *)
Definition sqrt32 (s v : Q) : Prop :=
  f32 v == v /\ 0 <= v /\
  forall w, f32 w == w -> 0 <= w ->
    (v < w -> s <= ((v + w) / 2) * ((v + w) / 2)) /\ (w < v -> ((v + w) / 2) * ((v + w) / 2) <= s).

(** custom_ops_tf.py:196-197, one row of the result. *)
Definition norm32 (D : nat) (p c : point) (v : Q) : Prop :=
  exists s, sum32 (map (fun d => let x := f32 (coord p d - coord c d) in f32 (x * x)) (seq 0 D)) s /\ sqrt32 s v.

(** custom_ops_tf.py:198: the comparison of the points [rows] with the centers
    [crows]; [r] is the first radius. *)
Definition compares32 (D : nat) (r : Q) (test : point -> point -> bool) (rows crows : list point) : Prop :=
  forall p c, In p rows -> In c crows -> exists v, norm32 D p c v /\ test p c = Qltb v r.
