(** Specification vocabulary for the evaluation of the networks. *)
From Coq Require Import List Arith ZArith QArith Reals.
From Verif Require Import Tensor PointCloud Spec SpecGrid.
Import ListNotations.
Local Open Scope nat_scope.

(** The class [k] has the largest score, and is the first one that has it. *)
Definition predicted (scores : list R) (k : nat) : Prop :=
  k < length scores /\ (forall j, j < length scores -> (nth j scores 0 <= nth k scores 0)%R) /\
  forall j, j < k -> (nth j scores 0 < nth k scores 0)%R.

(** The probability of class [k] for the given scores. *)
Definition probability (scores : list R) (k : nat) : R := (exp (nth k scores 0) / fold_right Rplus 0 (map exp scores))%R.
Definition probabilities (scores : list R) : list R := map (probability scores) (seq 0 (length scores)).

(** The part [r] of the models [0 .. n-1] for which [P] holds. *)
Definition fraction (n : nat) (P : nat -> Prop) (r : R) : Prop :=
  exists l, NoDup l /\ (forall j, In j l <-> j < n /\ P j) /\ r = (INR (length l) / INR n)%R.

(** The labels with label [k] for model [j]. *)
Definition relabelled (j k : nat) (ls : list nat) : list nat := firstn j ls ++ k :: skipn (S j) ls.

(** A test set: clouds of at least [samples] points of three coordinates, and for
    every radius the cells over [B] clouds can be counted in 32 bit. [extent r
    nc]: the first [samples] points of every cloud span at most [nc] cells of
    size [r], with the margin [eps]. *)
Definition extent (eps : Q) (samples : nat) (clouds : list (list point)) (r : Q) (d : nat) (nc : Z) : Prop :=
  forall c x y, In c clouds -> In x (firstn samples c) -> In y (firstn samples c) ->
    (nth d x 0 - nth d y 0 + (2 # 1) * eps <= inject_Z nc * r)%Q.
Record test_set (eps : Q) (B samples : nat) (clouds : list (list point)) (radii : list Q) : Prop := {
  ts_points : Forall (fun c => samples <= length c /\ Forall (fun x => length x = 3) c) clouds;
  ts_some : 0 < samples;
  ts_clouds : 1 <= B;
  ts_count : (Z.of_nat B * Z.of_nat samples < 2 ^ 31 - 1)%Z;
  ts_eps : (0 < eps /\ eps <= flt_max)%Q;
  ts_radii : Forall (fun r => (0 < r)%Q /\ exists nc : list Z, length nc = 3 /\ (Z.of_nat B * product nc <= 2 ^ 31)%Z /\
    forall d, d < 3 -> (1 <= nth d nc 0)%Z /\ extent eps samples clouds r d (nth d nc 0%Z)) radii }.
