(** The fallback search in float32 as the search of a neighborhood
    (pylib/pc/Neighborhood.py). The Poisson loop of Sampling.v reads only the
    rows and copies points: it needs no rounding. *)
From Coq Require Import List Arith ZArith QArith Bool.
From Verif Require Import Tensor PointCloud Grid Neighbors Neighborhood Sampling Float FloatGrid.
Import ListNotations.

(** custom_ops_tf.py:118-213 find_neighbors_tf, which ignores the maximal number
    of neighbors; it converts the radii to float32 (FloatGrid.v), which
    Neighborhood.py:224-227 has done before. *)
Definition search32 (test : point -> point -> bool) : search_fn :=
  fun g centers radii _ => find_neighbors32 GPU test g centers radii.
