(** Specification vocabulary for scaled and rotated clouds. *)
From Coq Require Import List Arith QArith Reals Permutation.
From Verif Require Import Tensor PointCloud Spec SpecGrid SpecHierarchy SpecLayers.
Import ListNotations.
Local Open Scope nat_scope.

(** [ps] pairs the points of element [e] of the batch [b] with those of element
    [e2] of [b2]. *)
Definition paired (e : nat) (b : batch) (e2 : nat) (b2 : batch) (ps : list (nat * nat)) : Prop :=
  Permutation (map fst ps) (members (snd b) e) /\ Permutation (map snd ps) (members (snd b2) e2).

(** Element [e2] of [b2] is element [e] of [b], reordered, multiplied by [s] and
    translated by [t]. *)
Definition scaled (D : nat) (s : Q) (t : nat -> Q) (e : nat) (b : batch) (e2 : nat) (b2 : batch) (ps : list (nat * nat)) : Prop :=
  paired e b e2 b2 ps /\
  forall i j d, In (i, j) ps -> d < D -> (xc (fst b2) j d == s * xc (fst b) i d + t d)%Q.

(** The points [b], [b2] paired by [ps] and the points [c], [c2] paired by [qs]:
    every distance between a point of [b2] and one of [c2] is [s] times the
    distance between their partners. This holds if the second clouds are the first
    ones rotated, reflected, translated and multiplied by [s]. *)
Definition similar (D : nat) (s : Q) (e : nat) (b c : batch) (e2 : nat) (b2 c2 : batch) (ps qs : list (nat * nat)) : Prop :=
  paired e b e2 b2 ps /\ paired e c e2 c2 qs /\
  forall i j k l, In (i, j) ps -> In (k, l) qs ->
    (dist2 D (nth j (fst b2) []) (nth l (fst c2) []) == s * s * dist2 D (nth i (fst b) []) (nth k (fst c) []))%Q.
