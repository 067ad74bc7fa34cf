(** Local pooling entirely in float32 (pylib/pc/layers/Pooling.py): the grid, the
    search and the features. *)
From Coq Require Import List Arith ZArith QArith Reals Bool.
From Verif Require Import Tensor PointCloud Grid Neighbors Neighborhood RTensor Layers Float FloatGrid FloatSampling.
Import ListNotations.

(** Pooling.py:103-166 _LocalPointPooling, as [local_pooling] of Layers.v with the
    grid and the fallback search in float32; the comparison of a computed
    distance with the radius is the argument [test] (FloatGrid.v). [red] is the
    reduction of one segment and one channel. The radius is converted to float32
    (Pooling.py:140-141) by [mk_grid32] and [find_neighbors32]. [None] is a 0-dimensional radius. *)
Definition local_pooling32 (test : point -> point -> bool) (red : list R -> R) (features : feat) (pin pout : pc)
  (radius : option (list Q)) (return_sorted return_padded : bool) : result feat :=
  f <- flat_features features pin ;;
  match radius with
  | None => Err IndexError
  | Some radii0 =>
    let radii := bcast (dim pin) radii0 in
    g <- mk_grid32 GPU pin radii ;;
    n <- snd (mk_nbh (search32 test) g radii (Some pout) 0) ;;
    nb <- tgather f (map fst (norig n)) ;;
    o <- tsegment GPU red nb (map snd (norig n)) (length (pts pout)) ;;
    layer_output o pout return_sorted return_padded
  end.
