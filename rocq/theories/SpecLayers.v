(** Specification vocabulary for the layer properties. *)
From Coq Require Import String List Arith ZArith QArith Reals Qreals Bool.
From Verif Require Import Tensor PointCloud Spec SpecCloud Grid SpecGrid Neighbors Neighborhood Pdf SpecPdf Sampling SpecSampling Hierarchy SpecHierarchy RTensor Layers.
Import ListNotations.
Local Open Scope nat_scope.

(** The points closer than [r] to center [i], in the same batch element. *)
Definition near_points (D : nat) (r : Q) (rows : list point) (ids : list nat) (crows : list point)
  (cids : list nat) (i : nat) : list nat :=
  filter (fun j => Nat.eqb (nth j ids 0) (nth i cids 0) &&
                   negb (Qle_bool (r * r)%Q (dist2 D (nth j rows []) (nth i crows []))))
         (seq 0 (length ids)).

(** Coordinate [d] of the difference between point [j] and center [i]. *)
Definition delta (rows crows : list point) (j i d : nat) : R :=
  (Q2R (xc rows j d) - Q2R (xc crows i d))%R.

(** Feature [c] of point [j]. *)
Definition fval (F : list (list R)) (j c : nat) : R := nth c (nth j F []) 0%R.

(** A matrix given by its entries. *)
Definition table (n c : nat) (f : nat -> nat -> R) : list (list R) :=
  map (fun i => map (f i) (seq 0 c)) (seq 0 n).

(** [F] is a feature matrix with [c] channels for [n] points. *)
Definition matrix (n c : nat) (F : list (list R)) : Prop :=
  length F = n /\ Forall (fun row => length row = c) F.

(** The points of batch element [b]. *)
Definition members (ids : list nat) (b : nat) : list nat :=
  filter (fun j => Nat.eqb (nth j ids 0) b) (seq 0 (length ids)).

(** [v] is the largest of the values. *)
Definition is_max (l : list R) (v : R) : Prop := In v l /\ Forall (fun x => (x <= v)%R) l.
Definition mean (l : list R) : R := (fold_right Rplus 0 l / INR (length l))%R.

(** Activation functions and kernel weightings by name. *)
Definition activation (name : string) (a : R -> R) : Prop :=
  (means name ["relu"%string] /\ a = (fun x => Rmax 0 x)) \/
  (means name ["lrelu"; "leakyrelu"; "leaky_relu"]%string /\ a = (fun x => if Rlt_dec 0 x then x else 2 / 10 * x)%R) \/
  (means name ["elu"%string] /\ a = (fun x => if Rlt_dec 0 x then x else exp x - 1)%R).
Definition weighting (name : string) (wt : R -> R -> R) : Prop :=
  (name = "linear"%string /\ wt = (fun v s => Rmax 0 (1 - v / s))%R) \/
  (name = "gaussian"%string /\ wt = (fun v s => exp (- (v / (s / 3)) ^ 2))%R).

(** Value of the MLP number [m] with the given hidden layer sizes at [x]:
    layer [k] has weights [w k [m; i; j]] and biases [b k [m; 0; j]]. *)
Fixpoint mlp (act : R -> R) (w b : nat -> list nat -> R) (m k prev : nat) (sizes : list nat) (x : nat -> R)
  : nat -> R :=
  match sizes with
  | [] => x
  | s :: rest =>
    mlp act w b m (S k) s rest
      (fun j => act (sum_over (seq 0 prev) (fun i => x i * w k [m; i; j]) + b k [m; 0%nat; j]))%R
  end.

(** Sum over channels and basis functions. *)
Definition weighted_sum (C H : nat) (W : nat -> nat -> R) (B : nat -> nat -> R) : R :=
  sum_over (seq 0 C) (fun c => sum_over (seq 0 H) (fun h => W c h * B c h)%R).

(** Euclidean norm of a vector with [D] entries. *)
Definition norm (D : nat) (x : nat -> R) : R := sqrt (sum_over (seq 0 D) (fun d => x d * x d)%R).

(** [feats] gives the [C] features of every point of the cloud [p]: row [j] of
    [F] belongs to point [j], whether [feats] is flat or padded (C09). *)
Definition given (feats : feat) (p : pc) (C : nat) (F : list (list R)) : Prop :=
  fch feats = C /\ snd (flatten_features (frows feats) p) = Ok F /\ length F = length (pts p).

(** What a layer returns for the output matrix [T], row [i] belonging to point
    [i] of [p], in the requested layout (C09). *)
Definition returned (p : pc) (return_sorted return_padded : bool) (C : nat) (T : list (list R)) : result feat :=
  match snd (format_output (repeat 0%R C) T p return_sorted return_padded) with
  | Ok o => Ok (Feat C o)
  | Err e => Err e
  end.

(** Clouds between which a layer with radius [r] can work: [pin] holds the
    points [rows], [pout] the centers [crows] of the same batch elements; two
    or more dimensions, a positive margin around the bounding boxes, points and
    cells within 32 bit. *)
Record workable (eps : Q) (D : nat) (r : Q) (rows : list point) (ids : list nat) (pin : pc)
  (crows : list point) (cids : list nat) (pout : pc) : Prop := {
  wk_in : exists B, cloud GPU eps D rows ids B pin /\ Forall (fun b => b < B) cids /\
            few_cells eps D (repeat r D) B (rows, ids);
  wk_out : exists ceps CB, cloud GPU ceps D crows cids CB pout;
  wk_dim : 2 <= D;
  wk_radius : (0 < r)%Q;
  wk_eps : (0 < eps)%Q /\ (eps <= flt_max)%Q;
  wk_points : ids <> [] /\ (Z.of_nat (length ids) < 2 ^ 31 - 1)%Z;
  wk_centers : cids <> [] }.

(** The convolutions, as formulas: entry [i], [o] of the output for points
    [rows], [ids] with features [F], centers [crows], [cids], neighbors within
    [r0]. *)
Section Formulas.
  Context (D : nat) (r0 : Q) (rows : list point) (ids : list nat) (crows : list point) (cids : list nat)
          (F : list (list R)).
  Let neighbors := near_points D r0 rows ids crows cids.

  (** Monte Carlo convolution: the kernel of output [o] is MLP number
      [o / (cout / mlps)] of the difference divided by the radius, the
      contributions are divided by the density [dens p i]. *)
  Definition mc_formula (cin cout mlps : nat) (sizes : list nat) (a : R -> R) (w b : nat -> list nat -> R)
    (fw : list nat -> R) (r : Q) (dens : nat -> nat -> R) (i o : nat) : R :=
    let P := cout / mlps in let H := last sizes 0 in
    weighted_sum cin H (fun c h => fw [o / P; c * H + h; o mod P])
      (fun c h => sum_over (neighbors i) (fun p =>
         fval F p c * (mlp a w b (o / P) 0 D sizes (fun d => delta rows crows p i d / Q2R r) h / dens p i)))%R.

  (** Kernel point convolution: kernel point [k] at [kpt i k] (it may depend on
      the center), weighting [wt] of the distance. *)
  Definition kp_formula (cin K : nat) (w : list nat -> R) (wt : R -> R) (kpt : nat -> nat -> nat -> R) (r : Q)
    (i o : nat) : R :=
    weighted_sum cin K (fun c k => w [c * K + k; o])
      (fun c k => sum_over (neighbors i) (fun p =>
         fval F p c * wt (norm D (fun d => delta rows crows p i d / Q2R r - kpt i k d))))%R.

  (** PointConv: one hidden layer of the difference, divided by a learned
      transform of the density relative to the largest one [mx i] around the
      center. *)
  Definition pt_formula (cin H : nat) (a : R -> R) (axis bias w w1 b1 w2 b2 : list nat -> R)
    (dens : nat -> nat -> R) (mx : nat -> R) (i o : nat) : R :=
    weighted_sum cin H (fun c h => w [c * H + h; o])
      (fun c h => sum_over (neighbors i) (fun p =>
         fval F p c *
         (a (sum_over (seq 0 D) (fun d => delta rows crows p i d * axis [d; h]) + bias [0%nat; h])
          / (sum_over (seq 0 16) (fun k => Rmax 0 (dens p i / mx i * w1 [0%nat; k] + b1 [0%nat; k]) * w2 [k; 0%nat])
             + b2 [0%nat; 0%nat]))))%R.
End Formulas.

(** A second pair of clouds: the points [rows] with their features [F]
    reordered by [s], the centers [crows] reordered by [s'], all translated by
    [t]. *)
Definition moved_pair (D : nat) (s s' : list nat) (t : nat -> Q)
  (rows : list point) (ids : list nat) (crows : list point) (cids : list nat) (F : list (list R))
  (rows2 : list point) (ids2 : list nat) (crows2 : list point) (cids2 : list nat) (F2 : list (list R)) : Prop :=
  moved_copy D s t rows ids rows2 ids2 /\ moved_copy D s' t crows cids crows2 cids2 /\
  F2 = map (fun i => nth i F []) s.

(** Two layer outputs without sorting or padding, the rows of the second being
    the rows of the first in the order [s']. *)
Definition reordered (s' : list nat) (out out2 : result feat) : Prop :=
  exists C T, length T = length s' /\ out = Ok (Feat C (inr T)) /\ out2 = Ok (Feat C (inr (map (fun i => nth i T []) s'))).

(** [rows2] are the [n] points [rows] translated by [t]. *)
Definition translated (D n : nat) (t : nat -> Q) (rows rows2 : list point) : Prop :=
  forall k d, k < n -> d < D -> (xc rows2 k d == xc rows k d + t d)%Q.
