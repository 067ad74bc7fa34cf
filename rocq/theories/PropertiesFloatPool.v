(** Average pooling in float32 (C78).
    Generated by tools/gen_props.py from FloatPoolProofs.v: statements only. *)
From Coq Require Import String List Arith ZArith NArith QArith Qabs Qround Qreals Reals Lia Lra Bool Permutation.
From Flocq Require Import Core.
From Verif Require Import Tensor TensorFacts Spec SpecText TextFacts PointCloud SpecCloud History PointCloudFacts QFacts Grid SpecGrid GridFacts Neighbors SpecNeighbors NeighborFacts NeighborProofs Neighborhood NeighborhoodFacts
  SamplingFacts SamplingProofs Pdf SpecPdf PdfFacts PdfProofs RTensor RTensorFacts Layers SpecLayers LayerFacts LayerLink LayerProofs ConvProofs
  Cuda CudaFacts GpuGrid GpuGridFacts GpuNeighbors GpuNeighborFacts
  GpuBasis GpuBasisFacts SpecGpuBasis GpuBasisProofs GpuPdf SpecGpuPdf GpuPdfFacts GpuPdfProofs
  CudaLayers SpecCudaLayers CudaLayerFacts CudaDensityFacts CudaConvFacts CudaLayerProofs
  Float FloatFacts SpecFloat FloatNorm FloatNormProofs FloatAverageProofs FloatLayers SpecFloatLayers.
From Verif Require Import FloatPoolProofs.
Import ListNotations.
Local Open Scope nat_scope.

(** C78. Global average pooling in float32, for every cloud and every order of the
    additions: one row per batch element with the average of each feature over the
    points of the element, up to the rounding error. *)
Theorem C78_global :
  forall dev eps D rows ids B p feats C F red, cloud GPU eps D rows ids B p -> given feats p C F -> float32_features F ->
    averaging32 red -> (Z.of_nat (length ids) <= 2 ^ 23)%Z ->
    let values := fun b c => map (fun j => fval F j c) (members ids b) in
    exists av, global_pooling dev red feats p false = Ok av /\ tshape av = [B; C] /\
      (forall b c, b < B -> c < C -> In b ids -> average32 (values b c) (tget av [b; c])) /\
      (forall b c, b < B -> c < C -> ~ In b ids -> tget av [b; c] = 0%R).
Proof. exact C78_global_proof. Qed.
Print Assumptions C78_global.

(** C78, partial. Local average pooling with float32 averages: row i holds the
    average of each feature over the points within the radius of center i, up to
    the rounding error; without such points 0. Partial: the neighbors are those of
    exact arithmetic, for clouds that the fallback can index (C31). *)
Theorem C78_local_partial :
  forall eps D r rows ids pin crows cids pout radii feats C F red return_sorted return_padded,
    workable eps D r rows ids pin crows cids pout -> radii = [r] \/ radii = repeat r D -> given feats pin C F -> float32_features F ->
    averaging32 red -> (Z.of_nat (length ids) <= 2 ^ 23)%Z ->
    let values := fun i c => map (fun j => fval F j c) (near_points D r rows ids crows cids i) in
    exists av,
      local_pooling GPU eps (find_neighbors_tf GPU) red feats pin pout (Some radii) return_sorted return_padded
        = returned pout return_sorted return_padded C (table (length cids) C av) /\
      forall i c, i < length cids -> c < C -> if values i c then av i c = 0%R else average32 (values i c) (av i c).
Proof. exact C78_local_partial_proof. Qed.
Print Assumptions C78_local_partial.

(** C78, partial. The same with the CUDA operations, for every device and every
    interleaving of the threads, which decides the order of the neighbors. The
    requested layout has to exist (C09). *)
Theorem C78_cuda_partial :
  forall active pactive bactive warp time eps D r rows ids pin crows cids pout radii feats C F red return_sorted return_padded,
    device_ok active pactive bactive warp ->
    cuda_workable (scan_limit active warp) eps D r rows ids pin crows cids pout ->
    radii = [r] \/ radii = repeat r D -> given feats pin C F -> float32_features F ->
    averaging32 red -> (Z.of_nat (length ids) <= 2 ^ 23)%Z ->
    (forall T, length T = length cids -> exists out, returned pout return_sorted return_padded C T = Ok out) ->
    let values := fun i c => map (fun j => fval F j c) (near_points D r rows ids crows cids i) in
    local_pooling_gpu active warp time eps red feats pin pout (Some radii) return_sorted return_padded (fun out => exists av,
      returned pout return_sorted return_padded C (table (length cids) C av) = Ok out /\
      forall i c, i < length cids -> c < C -> if values i c then av i c = 0%R else average32 (values i c) (av i c)).
Proof. exact C78_cuda_partial_proof. Qed.
Print Assumptions C78_cuda_partial.

(** C78, equality refuted. In exact arithmetic the average of equal features is
    that feature. In float32 the average of three equal features is computed as
    another number, whatever the order of the additions. *)
Theorem C78_equal_refuted :
  exists rows ids p feats F, cloud GPU 0 2 rows ids 1 p /\ given feats p 1 F /\ float32_features F /\ F = repeat [Q2R ex76_x] 3 /\
    forall dev red, averaging32 red ->
      exists av, global_pooling dev red feats p false = Ok av /\ tshape av = [1; 1] /\ tget av [0; 0] <> Q2R ex76_x.
Proof. exact C78_equal_refuted_proof. Qed.
Print Assumptions C78_equal_refuted.

Example C78_global_ex :
  averaging32 tail_red /\ float32_features exN_F /\ cloud GPU (1#1000) 2 exN_rows exN_ids 2 (seg 2 exN_rows exN_ids 2) /\
  given (Feat 2 (inr exN_F)) (seg 2 exN_rows exN_ids 2) 2 exN_F /\
  map (fun j => fval exN_F j 0) (members exN_ids 1) = [9%R; 11%R].
Proof. exact C78_global_ex_proof. Qed.

Example C78_local_partial_ex :
  averaging32 tail_red /\ float32_features exN_F /\
  workable (1#1000) 2 1 exN_rows exN_ids (seg 2 exN_rows exN_ids 2) exN_centers exN_cids (seg 2 exN_centers exN_cids 2) /\
  given (Feat 2 (inr exN_F)) (seg 2 exN_rows exN_ids 2) 2 exN_F /\
  map (near_points 2 1 exN_rows exN_ids exN_centers exN_cids) (seq 0 5) = [[0];[1];[];[];[4]].
Proof. exact C78_local_partial_ex_proof. Qed.

Example C78_cuda_partial_ex :
  averaging32 tail_red /\ float32_features exN_F /\ device_ok ex55_active 3 5 32 /\
  cuda_workable (scan_limit ex55_active 32) (1#1000) 2 1 exN_rows exN_ids (seg 2 exN_rows exN_ids 2) exN_rows exN_ids (seg 2 exN_rows exN_ids 2) /\
  map (near_points 2 1 exN_rows exN_ids exN_rows exN_ids) (seq 0 6) = [[0;1];[0;1];[2];[3];[4;5];[4;5]] /\
  given (Feat 2 (inr exN_F)) (seg 2 exN_rows exN_ids 2) 2 exN_F /\
  forall T, length T = length exN_ids -> exists out, returned (seg 2 exN_rows exN_ids 2) false false 2 T = Ok out.
Proof. exact C78_cuda_partial_ex_proof. Qed.

Example C78_equal_refuted_ex : averaging32 tail_red /\ tail_red [Q2R ex76_x; Q2R ex76_x; Q2R ex76_x] <> Q2R ex76_x.
Proof. exact C78_equal_refuted_ex_proof. Qed.
