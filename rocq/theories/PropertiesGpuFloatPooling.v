(** Local pooling with the CUDA operations entirely in float32 (C81).
    Generated by tools/gen_props.py from GpuFloatPoolingProofs.v: statements only. *)
From Coq Require Import String List Arith ZArith NArith QArith Qround Qabs Qreals Reals Lia Lra Bool Permutation Sorted.
From Verif Require Import Tensor TensorFacts Spec PointCloud SpecCloud History PointCloudFacts QFacts CloudProofs
  Grid SpecGrid GridFacts GridProofs Neighbors SpecNeighbors NeighborFacts NeighborProofs Neighborhood NeighborhoodFacts SamplingFacts SamplingProofs
  RTensor RTensorFacts Layers SpecLayers LayerFacts LayerLink LayerProofs FloatNorm FloatLayers SpecFloatLayers FloatPoolProofs FloatPooling FloatPoolingProofs
  Cuda CudaFacts AddFacts GpuGrid GpuGridFacts GpuGridProofs GpuScan SpecGpu GpuNeighbors GpuCountFacts SlotFacts GpuStoreFacts
  GpuNeighborFacts GpuOpFacts GpuRangeFacts GpuGeometry GpuSearchFacts GpuNeighborProofs
  Float FloatFacts FloatGrid SpecFloat FloatGridFacts FloatProofs FloatSampleProofs GpuFloat SpecGpuFloat GpuFloatProofs GpuFloatSearch GpuNearFacts GpuFloatSearchProofs
  CudaLayers GpuFloatPooling SpecGpuFloatPooling.
From Verif Require Import GpuFloatPoolingProofs.
Import ListNotations.
Local Open Scope nat_scope.

(** C81, partial. Local pooling with the CUDA operations in float32, for every
    device and schedule, either way of rounding and every order of the additions:
    the operations complete, and row i reduces the features of points of the
    element of center i, namely every point inside the ellipsoid of the radii
    reduced by a fraction of (m + 4) / 2^20, and no point outside the ellipsoid of
    the radii enlarged by a fraction of 4 / 2^20, where the coordinates of points,
    centers and corners are within [m] radii of the origin. Partial: dimensions 2
    and 3 and the restrictions of C41; the requested layout has to exist (C09). *)
Theorem C81_pooling_partial :
  forall fused active warp time eps D rows ids B p ceps crows cids CB cp radii (m : Z) feats C F red return_sorted return_padded,
    (forall x, active x <> 0) -> warp <> 0 -> (exists q, 2 ^ 8 * 2 = q * (2 * warp)) ->
    2 <= D <= 3 -> ids <> [] -> cloud GPU eps D rows ids B p -> valid_sizes D (map f32 radii) ->
    cids <> [] -> cloud GPU ceps D crows cids CB cp -> Forall (fun b => b < B) cids ->
    let rs := all_dims D (map f32 radii) in
    (forall d, (d < D)%nat -> pow2 (-100) <= nth d rs 0 /\ nth d rs 0 <= pow2 100)%Q ->
    (0 <= m)%Z -> (m + 4 < 2 ^ 20)%Z ->
    (forall d, (d < D)%nat ->
       (forall i, (i < length ids)%nat -> Qabs (xc rows i d) <= inject_Z m * nth d rs 0)%Q /\
       (forall i, (i < length cids)%nat -> Qabs (xc crows i d) <= inject_Z m * nth d rs 0)%Q /\
       (forall b lo, In b ids -> lower_corner32 D rows ids b lo -> Qabs (nth d lo 0) <= inject_Z m * nth d rs 0)%Q) ->
    length cids <= 2 ^ 8 * 2 + active KScan * (2 * warp) ->
    given feats p C F -> float32_features F -> averaging32 red -> (Z.of_nat (length ids) <= 2 ^ 23)%Z ->
    (forall T, length T = length cids -> exists out, returned cp return_sorted return_padded C T = Ok out) ->
    let between := ellipsoids_between D (times_radii (1 - (inject_Z m + 4) / 1048576) rs) (times_radii (1 + 4 / 1048576) rs) rows ids crows cids in
    local_pooling_gpu32 fused active warp time red_max feats p cp (Some radii) return_sorted return_padded (fun out => exists found mx,
      returned cp return_sorted return_padded C (table (length cids) C mx) = Ok out /\
      forall i c, i < length cids -> c < C -> between i (found i) /\
        let values := map (fun j => fval F j c) (found i) in
        if values then mx i c = (- Q2R flt_max)%R
        else Forall (fun v => (- Q2R flt_max <= v)%R) values -> is_max values (mx i c)) /\
    local_pooling_gpu32 fused active warp time red feats p cp (Some radii) return_sorted return_padded (fun out => exists found av,
      returned cp return_sorted return_padded C (table (length cids) C av) = Ok out /\
      forall i c, i < length cids -> c < C -> between i (found i) /\
        let values := map (fun j => fval F j c) (found i) in
        if values then av i c = 0%R else average32 values (av i c)).
Proof. exact C81_pooling_partial_proof. Qed.
Print Assumptions C81_pooling_partial.

Theorem C81_missed_refuted :
  exists rows ids p r feats F,
    cloud GPU 0 2 rows ids 1 p /\ float32_batch 2 rows ids /\ is_float32 r /\ valid_sizes 2 [r] /\ given feats p 1 F /\ float32_features F /\
    forall active warp time, (forall x, active x <> 0) -> warp <> 0 -> (exists q, 2 ^ 8 * 2 = q * (2 * warp)) ->
      local_pooling_gpu32 false active warp time red_max feats p p (Some [r]) false false (fun out => exists mx,
        returned p false false 1 (table (length ids) 1 mx) = Ok out /\
        exists j i, inside_ellipsoid 2 (times_radii (4 / 5) (all_dims 2 [r])) rows ids rows ids j i /\ (mx i 0%nat < fval F j 0)%R).
Proof. exact C81_missed_refuted_proof. Qed.
Print Assumptions C81_missed_refuted.

Example C81_pooling_partial_ex :
  cloud GPU 0 2 ex73_rows ex73_ids 1 ex73_cloud /\ valid_sizes 2 (map f32 [1#1]) /\
  let rs := all_dims 2 (map f32 [1#1]) in
  (forall d, (d < 2)%nat -> pow2 (-100) <= nth d rs 0 /\ nth d rs 0 <= pow2 100)%Q /\
  (forall d, (d < 2)%nat ->
     (forall i, (i < length ex73_ids)%nat -> Qabs (xc ex73_rows i d) <= inject_Z 3 * nth d rs 0)%Q /\
     (forall b lo, In b ex73_ids -> lower_corner32 2 ex73_rows ex73_ids b lo -> Qabs (nth d lo 0) <= inject_Z 3 * nth d rs 0)%Q) /\
  given (Feat 2 (inr ex81_feats)) ex73_cloud 2 ex81_feats /\ float32_features ex81_feats /\ averaging32 tail_red /\ 2 ^ 8 * 2 = 8 * (2 * 32) /\
  (forall T, length T = length ex73_ids -> exists out, returned ex73_cloud false false 2 T = Ok out) /\
  inside_ellipsoid 2 (times_radii (1 - (inject_Z 3 + 4) / 1048576) rs) ex73_rows ex73_ids ex73_rows ex73_ids 0 1 /\
  ~ inside_ellipsoid 2 (times_radii (1 + 4 / 1048576) rs) ex73_rows ex73_ids ex73_rows ex73_ids 0 2.
Proof. exact C81_pooling_partial_ex_proof. Qed.

Example C81_missed_refuted_ex :
  inside_ellipsoid 2 (times_radii (4 / 5) (all_dims 2 [165#128])) ex72_rows ex72_ids ex72_rows ex72_ids 1 2 /\ fval ex81_F 1 0 = 1%R.
Proof. exact C81_missed_refuted_ex_proof. Qed.
