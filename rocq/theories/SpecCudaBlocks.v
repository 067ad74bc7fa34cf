(** Specification vocabulary for the residual networks with the CUDA
    operations. *)
From Coq Require Import String List Arith ZArith NArith QArith Reals Qreals Bool.
From Verif Require Import Cuda GpuGrid GpuNeighbors GpuBasis SpecGpuBasis Tensor PointCloud Spec SpecText Grid Neighborhood Pdf SpecPdf RTensor
  Layers SpecLayers CudaLayers Blocks SpecBlocks.
Import ListNotations.
Local Open Scope nat_scope.

(** The arguments of a Monte Carlo or PointConv layer with activation [a] that
    can be applied to [C] features: the CUDA projection knows 8, 16, 32 and 64
    basis functions, and 1 to 7 features or a multiple of 8 (C46). *)
Definition cuda_applicable (C : nat) (args : layer_args) (a : R -> R) : Prop :=
  match args with
  | AMC mlps sizes act _ _ _ => activation act a /\ SpecGpuBasis.supported (last sizes 0 * mlps) C
  | APT hidden act _ _ _ _ _ _ _ => activation act a /\ SpecGpuBasis.supported hidden C
  | AKP _ _ _ _ _ _ _ => False
  end.

(** The constant of the CUDA density: its value is this factor times that of
    the definition (C48). *)
Definition density_factor (D : nat) : R := ((0.39894228 * sqrt (2 * PI)) ^ D)%R.
