(** Cell average sampling in float32: the rounding of the averages
    (pylib/pc/custom_ops/custom_ops_tf.py:309-320). Sampling.v models the same
    code with exact averages. *)
From Coq Require Import List Arith ZArith QArith Bool.
From Verif Require Import Tensor PointCloud Grid Neighbors Neighborhood Sampling Float FloatNorm.
Import ListNotations.
Local Open Scope Q_scope.

(** custom_ops_tf.py:317 tf.math.segment_mean, one segment with at least one
    row: the sum of every column, in any order and rounded after each addition,
    divided by the number of rows, which is converted to float32. *)
Definition mean32 (D : nat) (rows : list point) (p : point) : Prop :=
  length p = D /\
  forall d, (d < D)%nat -> exists s, sum32 (map (fun r => nth d r 0) rows) s /\
    nth d p 0 == f32 (s / f32 (inject_Z (Z.of_nat (length rows)))).

(** [avg k rows] is what segment_mean computes for segment [k]: the order of the
    additions can depend on the segment. *)
Definition averages32 (D : nat) (avg : nat -> list point -> point) : Prop :=
  forall k rows, rows <> [] -> mean32 D rows (avg k rows).

(** custom_ops_tf.py:309-322, the cell average branch of sampling_tf. *)
Definition sampling_average32 (avg : nat -> list point -> point) (n : nbh) : result (list point * list nat * list nat) :=
  let g := ngrid n in
  let keys := gskeys g in
  let '(unique, counts) := unique_with_counts Z.eqb keys in
  let num := length unique in
  new_keys <- tf_repeat (seq 0 num) counts ;;
  let ps := map (fun s => avg s (segment s (gspts g) new_keys)) (seq 0 num) in
  let sel := map (fun s => hd 0%nat (segment s (seq 0 (length (gspts g))) new_keys)) (seq 0 num) in
  bs <- gather (gsbids g) sel ;;
  Ok (ps, bs, sel).

(** sampling.py:123-150 sample with a name of the cell average. *)
Definition sample_average32 (avg : nat -> list point -> point) (n : nbh) : result pc :=
  out <- sampling_average32 avg n ;;
  let '(ps, bs, _) := out in
  sampled_cloud n ps bs.
