(** Specification vocabulary for reordered clouds in every output layout (C32). *)
From Coq Require Import List Arith Reals.
From Verif Require Import Tensor PointCloud RTensor Layers SpecLayers.
Import ListNotations.

(** Two layer outputs in the layouts of the output clouds [p] and [p2] (C09): there
    is one row per output point, and the rows of the second are the rows of the
    first in the order [s']. *)
Definition reordered_layout (s' : list nat) (p p2 : pc) (return_sorted return_padded : bool) (out out2 : result feat) : Prop :=
  exists C T, length T = length s' /\ out = returned p return_sorted return_padded C T /\
    out2 = returned p2 return_sorted return_padded C (map (fun i => nth i T []) s').

(** Two cloud objects with the same layout: the attributes that do not depend on
    the coordinates are equal (PointCloud.py:86-122; the coordinates and the stored
    bounding box may differ). *)
Definition same_layout (p p2 : pc) : Prop :=
  dim p2 = dim p /\ bids p2 = bids p /\ bsize p2 = bsize p /\ bshape p2 = bshape p /\ segshape p2 = segshape p /\
  psizes p2 = psizes p /\ unflatten p2 = unflatten p /\ sidx p2 = sidx p.
