(** Specification vocabulary for the classification networks. *)
From Coq Require Import String List Arith ZArith QArith Reals Qreals Bool.
From Verif Require Import Tensor PointCloud Spec SpecGrid SpecCloud SpecText Sampling SpecSampling Pdf SpecPdf Hierarchy SpecHierarchy RTensor Kernels Layers SpecLayers Blocks SpecBlocks Classifier.
Import ListNotations.
Local Open Scope nat_scope.

(** The names of the convolutions. *)
Definition conv_named (name : string) (t : conv_type) : Prop :=
  (name = "MCConv"%string /\ t = TMC) \/ (name = "PointConv"%string /\ t = TPT) \/ (name = "KPConv"%string /\ t = TKP).

(** Coordinate [d] of kernel point [k] of the 15 points of C36, rotated by the
    drawn angles. *)
Definition kernel_point (angles : R * R * R) (k d : nat) : R :=
  match spherical_kernel_points 15 (Some angles) with Ok t => tget t [k; d] | Err _ => 0%R end.

(** The convolution from the batch [up] to the batch [lo], three dimensions,
    bandwidth 0.2: the formulas of C34 with [mlps] kernel networks with a hidden
    layer of [hidden] for MCConv, a hidden layer of 32 for PointConv, 15 kernel
    points for KPConv. *)
Definition script_formula (t : conv_type) (mlps hidden : nat) (v : conv_vars)
  (cin cout : nat) (r : Q) (up lo : batch) (F : mat) : mat :=
  let near := near_points 3 r (fst up) (snd up) (fst lo) (snd lo) in
  let dens := density 3 (repeat (2 / 10)%R 3) (repeat r 3) (fst up) (snd up) in
  table (length (snd lo)) cout
    match t with
    | TMC => mc_formula 3 r (fst up) (snd up) (fst lo) (snd lo) F cin cout mlps [hidden]
               (fun x => if Rlt_dec 0 x then x else (2 / 10 * x)%R) (cv_w v) (cv_b v) (cv_fw v) r (fun p _ => dens p)
    | TPT => pt_formula 3 r (fst up) (snd up) (fst lo) (snd lo) F cin 32 (Rmax 0) (cv_axis v) (cv_bias v) (cv_pw v)
               (cv_w1 v) (cv_b1 v) (cv_w2 v) (cv_b2 v) (fun p _ => dens p) (fun i => fold_right Rmax 0%R (map dens (near i)))
    | TKP => kp_formula 3 r (fst up) (snd up) (fst lo) (snd lo) F cin 15 (cv_kw v) (fun x => Rmax 0 (1 - x))
               (fun _ k d => (kernel_point (cv_angles v) k d * (3 / 4))%R) r
    end.

(** Normalisation, then the activation with slope 0.3. *)
Definition activated (bn : mat -> mat) (X : mat) : mat :=
  map (map (fun x => if Rlt_dec 0 x then x else (3 / 10 * x)%R)) (bn X).

(** Feature rows sorted by batch element, the order within an element kept. *)
Definition by_element (B : nat) (ids : list nat) (X : mat) : mat :=
  concat (map (fun b => element b X ids) (seq 0 B)).

(** A sequence of convolutions, number [i] with radius [r] from one level to the
    next one, followed by [post i] unless it is the last one. *)
Section Encoder.
  Context (conv : nat -> Q -> batch -> batch -> mat -> mat) (post : nat -> nat -> mat -> mat).
  Fixpoint encoded (i : nat) (radii : list Q) (up : batch) (below : list batch) (F : mat) : mat :=
    match radii, below with
    | r :: radii', lo :: rest =>
      let Y := conv i r up lo F in
      match rest with
      | [] => Y
      | _ => encoded (S i) radii' lo rest (post i (length (snd lo)) Y)
      end
    | _, _ => F
    end.
End Encoder.

(** Between the convolutions: normalisation and activation before and after an
    affine map of the channels. *)
Definition small_post (bn : nat -> mat -> mat) (chans : nat -> nat) (ow ob : nat -> list nat -> R) (i n : nat) (X : mat) : mat :=
  activated (bn (2 * i + 1)) (affine n (chans (S i)) (chans (S i)) (ow i) (ob i) (activated (bn (2 * i)) X)).

(** Two dense layers with [c] inputs, [u1] hidden and [u2] output units. *)
Definition dense_head (pre0 pre1 : mat -> mat) (dw db : nat -> list nat -> R) (n c u1 u2 : nat) (X : mat) : mat :=
  affine n u1 u2 (dw 1) (db 1) (pre1 (affine n c u1 (dw 0) (db 0) (pre0 X))).

(** The largest of the values of the points around every point of [lo], the
    lowest float for none. *)
Definition pooled (r : Q) (up lo : batch) (C : nat) (X : mat) : mat :=
  table (length (snd lo)) C (fun k c => fold_right Rmax (- Q2R flt_max)%R
    (map (fun j => fval X j c) (near_points 3 r (fst up) (snd up) (fst lo) (snd lo) k))).

(** The mean of the rows of every batch element. *)
Definition averaged (B : nat) (ids : list nat) (C : nat) (X : mat) : mat :=
  table B C (fun b c => mean (map (fun j => fval X j c) (members ids b))).

(** A residual block from [up] to [lo]: a quarter of the channels inside, the
    skip branch pooled if [pool] gives a radius and mapped if the number of
    channels changes. *)
Definition block_formula (conv : nat -> nat -> Q -> batch -> batch -> mat -> mat) (bn : nat -> mat -> mat) (v : block_vars)
  (cin cout : nat) (r : Q) (pool : option Q) (up lo : batch) (X : mat) : mat :=
  let inner := cout / 4 in
  let n := length (snd up) in let m := length (snd lo) in
  let res := affine m inner cout (bv_uw v) (bv_ub v) (activated (bn 2)
               (conv inner inner r up lo (activated (bn 1)
                 (affine n cin inner (bv_dw v) (bv_db v) (activated (bn 0) X))))) in
  let skip := match pool with Some s => pooled s up lo cin X | None => X end in
  mat_add m cout res (if cin =? cout then skip else affine m cin cout (bv_sw v) (bv_sb v) (activated (bn 3) skip)).

(** The input of a call: [B] clouds padded to [V] points of three coordinates,
    none of them empty, the first [nth b sizes 0] points of element [b] being
    valid, and what the hierarchy needs (C25) for one cell size per level. Poisson
    disk sampling needs two clouds: it fails on a level with one point. *)
Record input_batch (eps : Q) (B V : nat) (points : list point) (sizes : list nat) (radii : list Q) (mode : string)
  (fuel : nat) : Prop := {
  ib_points : length points = B * V /\ Forall (fun x => length x = 3) points;
  ib_sizes : length sizes = B /\ Forall (fun n => 1 <= n <= V) sizes;
  ib_clouds : 1 <= B /\ (means mode poisson_names -> 2 <= B);
  ib_mode : means mode poisson_names \/ means mode average_names;
  ib_build : buildable eps 3 (valid_rows sizes V points) (ids_of_sizes sizes) B (map (fun r => [r]) radii) fuel }.

(** The same for every number of clouds, whatever the sampling. *)
Record padded_input (eps : Q) (B V : nat) (points : list point) (sizes : list nat) (radii : list Q) (mode : string)
  (fuel : nat) : Prop := {
  pi_points : length points = B * V /\ Forall (fun x => length x = 3) points;
  pi_sizes : length sizes = B /\ Forall (fun n => 1 <= n <= V) sizes;
  pi_clouds : 1 <= B;
  pi_mode : means mode poisson_names \/ means mode average_names;
  pi_build : buildable eps 3 (valid_rows sizes V points) (ids_of_sizes sizes) B (map (fun r => [r]) radii) fuel }.

(** Radii, one for every level, for which the convolutions can search: positive,
    the cells of that size counted in 32 bit. *)
Definition search_radii (eps : Q) (B : nat) (input : batch) (levels : nat) (radii : list Q) : Prop :=
  length radii = levels /\ Forall (fun r => (0 < r)%Q /\ few_cells eps 3 (repeat r 3) B input) radii.

(** The rows of padded features that belong to the points of a batch: row [i] is
    the feature of the [rank]-th point of its element. *)
Definition rows_for (V : nat) (ids : list nat) (features : mat) : mat :=
  map (fun i => nth (nth i ids 0 * V + rank i ids) features []) (seq 0 (length ids)).

(** Elements so small that a sampling with radius [r] keeps one point of each. *)
Definition one_sample (mode : string) (eps r : Q) (b : batch) : Prop :=
  (means mode poisson_names /\ forall i j, i < length (snd b) -> j < length (snd b) -> nth i (snd b) 0 = nth j (snd b) 0 ->
     (dist2 3 (nth i (fst b) []) (nth j (fst b) []) < r * r)%Q) \/
  (means mode average_names /\ forall i j d, i < length (snd b) -> j < length (snd b) -> d < 3 -> nth i (snd b) 0 = nth j (snd b) 0 ->
     (xc (fst b) i d - xc (fst b) j d + (2 # 1) * eps <= r)%Q).

(** The levels below the first one: a block of each kind on every level, with
    the radii of the pooling and of the convolutions. *)
Section Deeper.
  Context (strided : nat -> Q -> batch -> batch -> mat -> mat) (plain : nat -> Q -> batch -> mat -> mat).
  Fixpoint deeper (i : nat) (pool conv : list Q) (up : batch) (below : list batch) (X : mat) : mat :=
    match pool, conv, below with
    | p :: pool', c :: conv', lo :: rest => deeper (S i) pool' conv' lo rest (plain i c lo (strided i p up lo X))
    | _, _, _ => X
    end.
End Deeper.
