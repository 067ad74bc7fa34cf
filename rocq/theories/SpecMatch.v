(** Specification vocabulary for the independence of the predictions. *)
From Coq Require Import List Arith QArith Reals Permutation.
From Verif Require Import Tensor PointCloud Spec SpecGrid SpecHierarchy SpecLayers.
Import ListNotations.
Local Open Scope nat_scope.

(** Element [e] of the batch [b] and element [e2] of the batch [b2] are the same
    cloud up to the order of the points and a translation by [t]: [ps] pairs the
    points of the one with those of the other. *)
Definition matched (D : nat) (t : nat -> Q) (e : nat) (b : batch) (e2 : nat) (b2 : batch) (ps : list (nat * nat)) : Prop :=
  Permutation (map fst ps) (members (snd b) e) /\ Permutation (map snd ps) (members (snd b2) e2) /\
  forall i j d, In (i, j) ps -> d < D -> (xc (fst b2) j d == xc (fst b) i d + t d)%Q.

(** Paired points have the same feature rows. *)
Definition rows_match (ps : list (nat * nat)) (F F2 : list (list R)) : Prop :=
  forall i j, In (i, j) ps -> nth i F [] = nth j F2 [].

(** A map of feature matrices that treats every row on its own and keeps the
    number of channels, like the normalisation and dropout layers outside of
    training. *)
Definition rowwise (f : list (list R) -> list (list R)) : Prop :=
  exists g, (forall row, length (g row) = length row) /\ forall X, f X = map g X.

(** Cloud [e] of a padded batch of clouds is cloud [e2] of another one with its
    points in the order [s], translated by [t]; [V], [V2] are the padded
    lengths. *)
Definition same_cloud (D e V : nat) (sizes : list nat) (points : list point) (e2 V2 : nat) (sizes2 : list nat) (points2 : list point)
  (s : list nat) (t : nat -> Q) : Prop :=
  let n := nth e sizes 0 in
  nth e2 sizes2 0 = n /\ Permutation s (seq 0 n) /\
  forall k d, k < n -> d < D -> (xc points2 (e2 * V2 + k) d == xc points (e * V + nth k s 0%nat) d + t d)%Q.

(** The rows of features belong to the points. *)
Definition same_rows (e V n : nat) (features : list (list R)) (e2 V2 : nat) (features2 : list (list R)) (s : list nat) : Prop :=
  forall k, k < n -> nth (e2 * V2 + k) features2 [] = nth (e * V + nth k s 0) features [].
