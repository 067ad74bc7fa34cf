(** The CUDA basis projection and its gradients (C46).
    Generated by tools/gen_props.py from GpuBasisProofs.v: statements only. *)
From Coq Require Import String List Arith ZArith QArith Lia Reals Lra Bool Permutation.
From Verif Require Import Tensor TensorFacts PointCloud RTensor RTensorFacts Pdf SpecPdf PdfFacts Neighbors SpecNeighbors Neighborhood Layers SpecLayers LayerFacts LayerProofs
  Cuda CudaFacts MemFacts AddFacts CudaUpdate PhasedFacts GpuBasis GpuBasisFacts GpuBasisGradFacts SpecGpuBasis.
From Verif Require Import GpuBasisProofs.
Import ListNotations.
Local Open Scope nat_scope.

(** C46. For all supported sizes, under every schedule, entry s, c, k of the
    projection of the CUDA operation is the sum over the rows of center s of
    the neighbor list of feature c of the neighbor times entry k of the basis. *)
Theorem C46_projection :
  forall active basis feats nbs ends N C K,
    0 < active -> supported K C -> ends <> [] -> delimits ends nbs (length ends) -> Forall (fun q => fst q < N) nbs ->
    is_tensor [length nbs; K] basis -> is_tensor [N; C] feats ->
    basis_proj_op active basis feats nbs ends (fun t =>
      is_tensor [length ends; C; K] t /\
      forall s c k, s < length ends -> c < C -> k < K ->
        tget t [s; c; k] =
        sum_over (rows_of_center nbs s) (fun m => tget feats [fst (nth m nbs (0%nat, 0%nat)); c] * tget basis [m; k])%R).
Proof. exact C46_projection_proof. Qed.
Print Assumptions C46_projection.

(** C46. It is the result of the TensorFlow fallback. *)
Theorem C46_agree :
  forall active dev (n : nbh) basis feats N C K,
    0 < active -> supported K C -> pts (nsampled n) <> [] ->
    delimits (rdata (nranges n)) (nnbs n) (length (pts (nsampled n))) -> map snd (norig n) = map snd (nnbs n) ->
    Forall (fun q => fst q < N) (norig n) -> is_tensor [length (norig n); K] basis -> is_tensor [N; C] feats ->
    basis_proj_op active basis feats (norig n) (rdata (nranges n)) (fun t => basis_proj dev basis feats n = Ok t).
Proof. exact C46_agree_proof. Qed.
Print Assumptions C46_agree.

(** C46. For all supported sizes, under every schedule, the gradients computed
    by the CUDA operation: for row m of the basis, the sum over the features of
    the incoming gradient at the center of the row times the feature of its
    neighbor; for a point, the sum over the rows where it is the neighbor of the
    incoming gradient at their centers times their basis. *)
Theorem C46_gradients :
  forall active basis feats nbs ends grads N C K,
    0 < active -> supported K C -> ends <> [] -> delimits ends nbs (length ends) -> Forall (fun q => fst q < N) nbs ->
    is_tensor [length nbs; K] basis -> is_tensor [N; C] feats -> is_tensor [length ends; C; K] grads ->
    basis_proj_grads_op active basis feats nbs ends grads (fun db df =>
      is_tensor [length nbs; K] db /\ is_tensor [N; C] df /\
      (forall m k, m < length nbs -> k < K -> let (p, s) := nth m nbs (0, 0) in
         tget db [m; k] = sum_over (seq 0 C) (fun c => tget grads [s; c; k] * tget feats [p; c])%R) /\
      (forall p c, p < N -> c < C ->
         tget df [p; c] = sum_over (rows_of_neighbor nbs p) (fun m => let s := snd (nth m nbs (0%nat, 0%nat)) in
           sum_over (seq 0 K) (fun k => tget grads [s; c; k] * tget basis [m; k])%R))).
Proof. exact C46_gradients_proof. Qed.
Print Assumptions C46_gradients.

(** C46. They are the transposed maps: the inner product of the incoming
    gradient with the projection, as a function of the basis (for the same
    features) and as a function of the features (for the same basis), is the
    inner product with the computed gradient. *)
Theorem C46_transposed :
  forall active basis feats nbs ends grads N C K,
    0 < active -> supported K C -> ends <> [] -> delimits ends nbs (length ends) -> Forall (fun q => fst q < N) nbs ->
    is_tensor [length nbs; K] basis -> is_tensor [N; C] feats -> is_tensor [length ends; C; K] grads ->
    basis_proj_grads_op active basis feats nbs ends grads (fun db df =>
      (forall basis', is_tensor [length nbs; K] basis' ->
         basis_proj_op active basis' feats nbs ends (fun t => dot3 (length ends) C K grads t = dot2 (length nbs) K db basis')) /\
      (forall feats', is_tensor [N; C] feats' ->
         basis_proj_op active basis feats' nbs ends (fun t => dot3 (length ends) C K grads t = dot2 N C df feats'))).
Proof. exact C46_transposed_proof. Qed.
Print Assumptions C46_transposed.

Example C46_projection_ex :
  delimits ex46_ends ex46_nbs 5 /\ supported 8 16 /\
  forall active f b, 0 < active ->
    basis_proj_op active (ttab [4; 8] b) (ttab [6; 16] f) ex46_nbs ex46_ends (fun t =>
      tget t [0; 9; 7] = (f [0; 9]%nat * b [0; 7]%nat + f [3; 9]%nat * b [1; 7]%nat)%R /\ tget t [2; 9; 7] = 0%R).
Proof. exact C46_projection_ex_proof. Qed.

Example C46_gradients_ex :
  delimits ex46_ends ex46_nbs 5 /\ supported 8 16 /\
  forall active f b g, 0 < active ->
    basis_proj_grads_op active (ttab [4; 8] b) (ttab [6; 16] f) ex46_nbs ex46_ends (ttab [5; 16; 8] g) (fun db df =>
      tget db [1; 7] = sum_over (seq 0 16) (fun c => g [0; c; 7]%nat * f [3; c]%nat)%R /\
      tget df [3; 9] = sum_over (seq 0 8) (fun k => g [0; 9; k]%nat * b [1; k]%nat)%R /\ tget df [2; 9] = 0%R).
Proof. exact C46_gradients_ex_proof. Qed.

(** A neighborhood object for the agreement with the fallback. *)
Example C46_agree_ex :
  exists n, pts (nsampled n) <> [] /\ delimits (rdata (nranges n)) (nnbs n) (length (pts (nsampled n))) /\ map snd (norig n) = map snd (nnbs n) /\
    Forall (fun q => fst q < 6) (norig n) /\ length (norig n) = 3 /\
    forall active dev f b, 0 < active ->
      basis_proj_op active (ttab [3; 16] b) (ttab [6; 4] f) (norig n) (rdata (nranges n)) (fun t => basis_proj dev (ttab [3; 16] b) (ttab [6; 4] f) n = Ok t).
Proof. exact C46_agree_ex_proof. Qed.

(** Sixteen features, eight basis functions, five centers. *)
Example C46_transposed_ex :
  supported 8 16 /\ delimits ex46_ends ex46_nbs 5 /\ Forall (fun q => fst q < 6) ex46_nbs /\
  is_tensor [4; 8] (ttab [4; 8] (fun i => INR (nth 1 i 0))) /\ is_tensor [6; 16] (ttab [6; 16] (fun i => INR (nth 0 i 0))) /\
  is_tensor [5; 16; 8] (ttab [5; 16; 8] (fun i => INR (nth 2 i 0))).
Proof. exact C46_transposed_ex_proof. Qed.
