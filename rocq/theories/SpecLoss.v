(** Specification vocabulary for the regularization loss of a batch. *)
From Coq Require Import String List Arith QArith Reals.
From Verif Require Import GpuBasis GpuPdf Cuda GpuGrid Tensor PointCloud SpecCloud Grid SpecGrid Neighbors SpecNeighbors Neighborhood Hierarchy SpecHierarchy
  Pdf RTensor Layers SpecLayers SpecMatch SpecScale CudaLayers SpecCudaLayers.
Import ListNotations.
Local Open Scope nat_scope.

(** What a convolution is called with: the rows and batch elements of the input
    points and of the output points, the clouds made of them, and the features
    with their rows [i_F]. *)
Record conv_input := Input {
  i_eps : Q; i_rows : list point; i_ids : list nat; i_in : pc;
  i_crows : list point; i_cids : list nat; i_out : pc; i_feats : feat; i_F : list (list R) }.

(** The only cloud in [c] is element [e] of [b]: the same input points with the
    same features and the same output points, in any order, multiplied by [s] and
    translated by [t]. *)
Definition only_element (D : nat) (s : Q) (t : nat -> Q) (e : nat) (b c : conv_input) : Prop :=
  exists ps qs,
    scaled D s t e (i_rows b, i_ids b) 0 (i_rows c, i_ids c) ps /\ scaled D s t e (i_crows b, i_cids b) 0 (i_crows c, i_cids c) qs /\
    rows_match ps (i_F b) (i_F c) /\ Forall (fun x => x = 0) (i_cids c).

(** The pure TensorFlow fallback: whenever the layer is called with a workable
    input and then asked for its regularization loss, it gives [v]. *)
Definition fallback_loss (layer : kpconv) (D : nat) (r : Q) (influence : option R) (cin : nat) (b : conv_input) (v : R) : Prop :=
  workable (i_eps b) D r (i_rows b) (i_ids b) (i_in b) (i_crows b) (i_cids b) (i_out b) ->
  given (i_feats b) (i_in b) cin (i_F b) ->
  exists o state,
    kpconv_call GPU (i_eps b) (find_neighbors_tf GPU) layer (i_feats b) (i_in b) (i_out b) r None influence false false = Ok (o, state) /\
    regularization_loss GPU layer state = Ok v.

(** The CUDA operations, on every device and for every interleaving. *)
Definition cuda_loss (layer : kpconv) (D : nat) (r : Q) (influence : option R) (cin : nat) (b : conv_input) (v : R) : Prop :=
  forall active pactive bactive warp time,
    device_ok active pactive bactive warp ->
    cuda_workable (scan_limit active warp) (i_eps b) D r (i_rows b) (i_ids b) (i_in b) (i_crows b) (i_cids b) (i_out b) ->
    given (i_feats b) (i_in b) cin (i_F b) ->
    kpconv_gpu active bactive warp time (i_eps b) layer (i_feats b) (i_in b) (i_out b) r None influence false false
      (fun _ state => regularization_loss GPU layer state = Ok v).
