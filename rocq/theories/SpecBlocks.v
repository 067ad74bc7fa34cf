(** Specification vocabulary for the residual networks. *)
From Coq Require Import String List Arith ZArith QArith Reals Qreals Bool.
From Verif Require Import Tensor PointCloud Spec SpecText Pdf SpecPdf RTensor Layers SpecLayers Blocks.
Import ListNotations.
Local Open Scope nat_scope.

(** A function of matrices with any number of rows and any number of columns
    that keeps both, like batch normalisation and activations. *)
Definition keeps_shape (f : mat -> mat) : Prop := forall n c X, matrix n c X -> matrix n c (f X).

(** Entrywise sum of two matrices. *)
Definition mat_add (n c : nat) (X Y : mat) : mat := table n c (fun i o => fval X i o + fval Y i o)%R.

(** An affine map of every row. *)
Definition affine (n cin cout : nat) (w b : list nat -> R) (X : mat) : mat :=
  table n cout (fun i o => sum_over (seq 0 cin) (fun c => fval X i c * w [c; o]) + b [0%nat; o])%R.

(** The shortcut of block [k]: the features themselves, or an affine map. *)
Definition shortcut (projection : bool) (n c : nat) (pw pb : nat -> list nat -> R) (k : nat) (X : mat) : mat :=
  if projection then affine n c c (pw k) (pb k) X else X.

(** Pre-activation: normalisation number [k], then the activation. *)
Definition preactivation (bn : nat -> mat -> mat) (act : mat -> mat) (k : nat) (X : mat) : mat := act (bn k X).

(** [blocks] blocks one after the other, block [k] replacing the features [X] by
    the residual [res k X] plus the shortcut. *)
Definition residual_network (n c : nat) (res : nat -> mat -> mat) (short : nat -> mat -> mat) (blocks : nat) (X : mat) : mat :=
  fold_left (fun X k => mat_add n c (res k X) (short k X)) (seq 0 blocks) X.

(** The residuals of the three networks: [conv k] is the convolution number
    [k]. *)
Definition two_convolutions (bn : nat -> mat -> mat) (act : mat -> mat) (conv : nat -> mat -> mat) (k : nat) (X : mat) : mat :=
  conv (2 * k + 1) (preactivation bn act (2 * k + 1) (conv (2 * k) (preactivation bn act (2 * k) X))).
Definition narrow_convolution (bn : nat -> mat -> mat) (act : mat -> mat) (n c inner : nat) (dw db uw ub : nat -> list nat -> R)
  (conv : nat -> mat -> mat) (k : nat) (X : mat) : mat :=
  affine n inner c (uw k) (ub k) (preactivation bn act (3 * k + 2)
    (conv k (preactivation bn act (3 * k + 1) (affine n c inner (dw k) (db k) (preactivation bn act (3 * k) X))))).
Definition coarse_convolution (bn : nat -> mat -> mat) (act : mat -> mat) (down middle up : nat -> mat -> mat)
  (k : nat) (X : mat) : mat :=
  up k (preactivation bn act (3 * k + 2) (middle k (preactivation bn act (3 * k + 1) (down k (preactivation bn act (3 * k) X))))).

(** The convolution formulas of SpecLayers.v with an arbitrary list of
    neighbors for every output point. *)
Section Formulas.
  Context (neighbors : nat -> list nat) (D : nat) (rows crows : list point) (F : mat).

  Definition mc_formula_over (cin cout mlps : nat) (sizes : list nat) (a : R -> R) (w b : nat -> list nat -> R)
    (fw : list nat -> R) (r : Q) (dens : nat -> R) (i o : nat) : R :=
    let P := cout / mlps in let H := last sizes 0 in
    weighted_sum cin H (fun c h => fw [o / P; c * H + h; o mod P])
      (fun c h => sum_over (neighbors i) (fun p =>
         fval F p c * (mlp a w b (o / P) 0 D sizes (fun d => delta rows crows p i d / Q2R r) h / dens p)))%R.

  Definition pt_formula_over (cin H : nat) (a : R -> R) (axis bias w w1 b1 w2 b2 : list nat -> R)
    (dens : nat -> R) (mx : nat -> R) (i o : nat) : R :=
    weighted_sum cin H (fun c h => w [c * H + h; o])
      (fun c h => sum_over (neighbors i) (fun p =>
         fval F p c *
         (a (sum_over (seq 0 D) (fun d => delta rows crows p i d * axis [d; h]) + bias [0%nat; h])
          / (sum_over (seq 0 16) (fun k => Rmax 0 (dens p / mx i * w1 [0%nat; k] + b1 [0%nat; k]) * w2 [k; 0%nat])
             + b2 [0%nat; 0%nat]))))%R.
End Formulas.

(** The output matrix of a convolution with the given arguments for [n] output
    points: [neighbors i] are the neighbors of output point [i], [a] is the
    activation of its kernel, [dens] the density and [mx i] the largest density
    among the neighbors. *)
Definition layer_formula (neighbors : nat -> list nat) (D : nat) (rows crows : list point) (r : Q) (dens mx : nat -> R)
  (n cin cout : nat) (args : layer_args) (a : R -> R) (F : mat) : mat :=
  match args with
  | AMC mlps sizes _ w b fw => table n cout (mc_formula_over neighbors D rows crows F cin cout mlps sizes a w b fw r dens)
  | APT hidden _ axis bias w w1 b1 w2 b2 =>
    table n cout (pt_formula_over neighbors D rows crows F cin hidden a axis bias w w1 b1 w2 b2 dens mx)
  | AKP _ _ _ _ _ _ _ => []
  end.

(** The arguments of a Monte Carlo or PointConv layer with activation [a] that
    can be applied for [n] output points (C34). *)
Definition applicable (n : nat) (args : layer_args) (a : R -> R) : Prop :=
  match args with
  | AMC _ _ act _ _ _ => activation act a
  | APT hidden act _ _ _ _ _ _ _ => activation act a /\ 0 < hidden /\ 2 <= n
  | AKP _ _ _ _ _ _ _ => False
  end.

(** [mx i] is the largest density among the neighbors of [i], for the [n]
    output points that have neighbors. *)
Definition largest (neighbors : nat -> list nat) (n : nat) (dens mx : nat -> R) : Prop :=
  forall i, i < n -> neighbors i <> [] -> is_max (map dens (neighbors i)) (mx i).

(** With the points near the output points as neighbors these are the formulas
    of the layers. *)
Lemma mc_formula_near D r0 rows ids crows cids F cin cout mlps sizes a w b fw r dens i o :
  mc_formula D r0 rows ids crows cids F cin cout mlps sizes a w b fw r (fun p _ => dens p) i o
  = mc_formula_over (near_points D r0 rows ids crows cids) D rows crows F cin cout mlps sizes a w b fw r dens i o.
Proof. reflexivity. Qed.
Lemma pt_formula_near D r0 rows ids crows cids F cin H a axis bias w w1 b1 w2 b2 dens mx i o :
  pt_formula D r0 rows ids crows cids F cin H a axis bias w w1 b1 w2 b2 (fun p _ => dens p) mx i o
  = pt_formula_over (near_points D r0 rows ids crows cids) D rows crows F cin H a axis bias w w1 b1 w2 b2 dens mx i o.
Proof. reflexivity. Qed.
