(** Specification vocabulary for layers under float32 rounding (C78). *)
From Coq Require Import List Arith ZArith QArith Reals Qreals Bool.
From Verif Require Import Tensor SpecLayers Float SpecFloat.
Import ListNotations.
Local Open Scope R_scope.

(** Features that are float32 numbers. *)
Definition float32_value (v : R) : Prop := exists q : Q, is_float32 q /\ v = Q2R q.
Definition float32_features (F : list (list R)) : Prop := Forall (Forall float32_value) F.

(** [v] is the average of [l] up to rounding: for values of magnitude up to [m]
    the error is at most [m] times the number of values divided by 2^23; a single
    value is kept, and the average of two values lies between them. *)
Definition average32 (l : list R) (v : R) : Prop :=
  (forall m, Forall (fun x => Rabs x <= m) l -> Rabs (v - mean l) <= m * (INR (length l) / 8388608) + / 2 ^ 148) /\
  (forall x, l = [x] -> v = x) /\
  (forall x y, l = [x; y] -> Rmin x y <= v <= Rmax x y).
