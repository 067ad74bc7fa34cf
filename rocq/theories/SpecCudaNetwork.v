(** Specification vocabulary for hierarchies and classification networks with
    the CUDA operations. *)
From Coq Require Import String List Arith ZArith QArith Reals Bool.
From Verif Require Import Tensor PointCloud Spec SpecGrid SpecCloud SpecText SpecSampling SpecGpuSampling SpecHierarchy
  RTensor SpecLayers Layers Blocks SpecBlocks Classifier SpecClassifier Cuda GpuNeighbors GpuSampling SpecCudaLayers.
Import ListNotations.
Local Open Scope nat_scope.

(** A device as in C55, also for the kernels of the sampling. *)
Definition device_samples (active : kernel -> nat) (sactive : skernel -> nat) (pactive bactive warp : nat) : Prop :=
  device_ok active pactive bactive warp /\ forall k, sactive k <> 0.

(** [lo] is what one level with cell sizes [cs] makes of the batch [up]: as
    [next_level], with the ellipsoid of all sizes in place of the ball of the
    first one. *)
Definition next_level_cuda (mode : string) (eps : Q) (D : nat) (cs : list Q) (up lo : batch) : Prop :=
  (means mode poisson_names /\ exists sel, ellipsoid_sample D cs (fst up) (snd up) sel /\
     fst lo = map (fun i => nth i (fst up) []) sel /\ snd lo = map (fun i => nth i (snd up) 0) sel) \/
  (means mode average_names /\ cell_average eps D cs (fst up) (snd up) (fst lo) (snd lo)).

(** Inputs for which the CUDA operations can build a hierarchy: at most as many
    points as the prefix sum handles without a race (C42), two or three
    dimensions, positive sizes. Unlike [buildable] there is no condition on the
    number of cells or on the order of the sizes. *)
Record cuda_buildable (limit : nat) (eps : Q) (D : nat) (ids : list nat) (sizes : list (list Q)) : Prop := {
  cb_eps : (0 < eps)%Q;
  cb_dim : 2 <= D <= 3;
  cb_ne : ids <> [];
  cb_limit : length ids <= limit;
  cb_sizes : Forall (fun l => l <> [] /\ length l <= D /\ Forall (fun c => (0 < c)%Q) l) sizes }.

(** The input of a call of a network: one or more clouds, padded to [V] points. *)
Record cuda_input (limit : nat) (eps : Q) (B V : nat) (points : list point) (sizes : list nat) (radii : list Q) (mode : string) : Prop := {
  ci_points : length points = B * V /\ Forall (fun x => length x = 3) points;
  ci_sizes : length sizes = B /\ Forall (fun n => 1 <= n <= V) sizes;
  ci_some : 1 <= B;
  ci_mode : means mode poisson_names \/ means mode average_names;
  ci_eps : (0 < eps)%Q;
  ci_limit : fold_right Nat.add 0 sizes <= limit;
  ci_radii : Forall (fun r => (0 < r)%Q) radii }.

(** Numbers of input channels that the projection kernel supports (C47). *)
Definition cuda_channels (c : nat) : Prop := 0 < c /\ (c < 8 \/ c mod 8 = 0).

(** The convolution with the CUDA operations: MCConv divides by densities that
    are larger by the third power of 0.39894228 sqrt (2 PI) (C55), the others are
    the same as with the fallback. *)
Definition cuda_formula (t : conv_type) (mlps hidden : nat) (v : conv_vars)
  (cin cout : nat) (r : Q) (up lo : batch) (F : mat) : mat :=
  let X := script_formula t mlps hidden v cin cout r up lo F in
  match t with
  | TMC => map (map (fun x => x / (0.39894228 * sqrt (2 * PI)) ^ 3)%R) X
  | _ => X
  end.
