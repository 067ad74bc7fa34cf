(** The layers with the CUDA operations (C55).
    Generated by tools/gen_props.py from CudaLayerProofs.v: statements only. *)
From Coq Require Import String List Arith ZArith NArith QArith Qround Qreals Reals Lia Lra Bool Permutation.
From Verif Require Import Tensor TensorFacts Spec SpecText TextFacts PointCloud SpecCloud History PointCloudFacts QFacts Grid SpecGrid GridFacts Neighbors SpecNeighbors NeighborFacts NeighborProofs Neighborhood NeighborhoodFacts
  SamplingFacts SamplingProofs Pdf SpecPdf PdfFacts PdfProofs RTensor RTensorFacts Layers SpecLayers LayerFacts LayerLink LayerProofs ConvProofs
  Cuda CudaFacts GpuGrid GpuGridFacts GpuNeighbors GpuNeighborFacts
  GpuBasis GpuBasisFacts SpecGpuBasis GpuBasisProofs GpuPdf SpecGpuPdf GpuPdfFacts GpuPdfProofs
  CudaLayers SpecCudaLayers CudaLayerFacts CudaDensityFacts CudaConvFacts.
From Verif Require Import CudaLayerProofs.
Import ListNotations.
Local Open Scope nat_scope.

(** C55. Local pooling with the CUDA operations, for every device and every
    interleaving of the threads: row i holds the largest entry respectively
    the mean of each feature over the points within the radius of center i, as
    without them (C31). *)
Theorem C55_local_pooling_partial :
  forall active pactive bactive warp time eps D r rows ids pin crows cids pout radii feats C F return_sorted return_padded,
    device_ok active pactive bactive warp ->
    cuda_workable (scan_limit active warp) eps D r rows ids pin crows cids pout ->
    radii = [r] \/ radii = repeat r D -> given feats pin C F ->
    let values := fun i c => map (fun j => fval F j c) (near_points D r rows ids crows cids i) in
    exists mx av,
      (forall out, returned pout return_sorted return_padded C (table (length cids) C mx) = Ok out ->
         max_pooling_gpu active warp time eps feats pin pout (Some radii) return_sorted return_padded (fun o => o = out)) /\
      (forall out, returned pout return_sorted return_padded C (table (length cids) C av) = Ok out ->
         average_pooling_gpu active warp time eps feats pin pout (Some radii) return_sorted return_padded (fun o => o = out)) /\
      forall i c, i < length cids -> c < C ->
        if values i c then mx i c = (- Q2R flt_max)%R /\ av i c = 0%R
        else (Forall (fun v => (- Q2R flt_max <= v)%R) (values i c) -> is_max (values i c) (mx i c)) /\
             av i c = mean (values i c).
Proof. exact C55_local_pooling_partial_proof. Qed.
Print Assumptions C55_local_pooling_partial.

(** C55, MCConv: the formula of C34 (the result with the TensorFlow fallback)
    divided by the D-th power of 0.39894228 sqrt (2 PI), which differs from 1 by at
    most 1e-8; the number of basis functions must be 8, 16, 32 or 64 and that of
    input features 1 to 7 or a multiple of 8. *)
Theorem C55_mcconv_partial :
  forall active pactive bactive warp time eps D r rows ids pin crows cids pout cin cout mlps sizes act a w b fw layer feats F
         bandwidth return_sorted return_padded,
    device_ok active pactive bactive warp ->
    cuda_workable (scan_limit active warp) eps D r rows ids pin crows cids pout -> length ids <= scan_limit active warp ->
    mk_mcconv cin cout D mlps sizes act w b fw = Ok layer -> 0 < cout -> activation act a ->
    SpecGpuBasis.supported (last sizes 0 * mlps) cin ->
    given feats pin cin F -> (0 < bandwidth)%R ->
    let factor := ((0.39894228 * sqrt (2 * PI)) ^ D)%R in
    (1 - 1 / 100000000 <= factor <= 1)%R /\
    forall out,
      returned pout return_sorted return_padded cout (table (length cids) cout (fun i o =>
        mc_formula D r rows ids crows cids F cin cout mlps sizes a w b fw r
           (fun p _ => density D (repeat bandwidth D) (repeat r D) rows ids p) i o / factor)%R) = Ok out ->
      mcconv_gpu active pactive bactive warp time eps layer feats pin pout r None bandwidth return_sorted return_padded (fun o => o = out).
Proof. exact C55_mcconv_partial_proof. Qed.
Print Assumptions C55_mcconv_partial.

(** C55, PointConv: the formula of C34, also for a single output point, with
    which the fallback fails; the number of hidden units must be 8, 16, 32 or
    64. *)
Theorem C55_pointconv_partial :
  forall active pactive bactive warp time eps D r rows ids pin crows cids pout cin cout hidden act a axis bias w w1 b1 w2 b2 feats F
         bandwidth mx return_sorted return_padded,
    device_ok active pactive bactive warp ->
    cuda_workable (scan_limit active warp) eps D r rows ids pin crows cids pout -> length ids <= scan_limit active warp ->
    SpecGpuBasis.supported hidden cin -> activation act a -> given feats pin cin F -> (0 < bandwidth)%R ->
    let dens := density D (repeat bandwidth D) (repeat r D) rows ids in
    (forall i, i < length cids -> near_points D r rows ids crows cids i <> [] ->
       is_max (map dens (near_points D r rows ids crows cids i)) (mx i)) ->
    forall out,
      returned pout return_sorted return_padded cout (table (length cids) cout
        (pt_formula D r rows ids crows cids F cin hidden a axis bias w w1 b1 w2 b2 (fun p _ => dens p) mx)) = Ok out ->
      pointconv_gpu active pactive bactive warp time eps (mk_pointconv cin cout D hidden act axis bias w w1 b1 w2 b2)
        feats pin pout r None bandwidth return_sorted return_padded (fun o => o = out).
Proof. exact C55_pointconv_partial_proof. Qed.
Print Assumptions C55_pointconv_partial.

(** C55, KPConv: the formula and the regularization loss of C34, for up to 64
    kernel points. *)
Theorem C55_kpconv_partial :
  forall active pactive bactive warp time eps D r rows ids pin crows cids pout cin cout K deformable interpolation wt kernel_points w wo
         spherical layer feats F influence return_sorted return_padded,
    device_ok active pactive bactive warp ->
    cuda_workable (scan_limit active warp) eps D r rows ids pin crows cids pout ->
    mk_kpconv cin cout K D deformable interpolation
      (Some (ttab [K; D] (fun idx => match idx with [k; d] => kernel_points k d | _ => 0%R end))) spherical w wo = Ok layer ->
    0 < cin /\ (cin < 8 \/ cin mod 8 = 0) -> 0 < K <= 64 -> weighting interpolation wt -> given feats pin cin F ->
    let sigma := match influence with None => 1%R | Some s => (s / Q2R r)%R end in
    let start := fun (_ k d : nat) => (kernel_points k d * (3 / 4))%R in
    let conv := kp_formula D r rows ids crows cids F cin K in
    let offset := fun i k d => conv wo (fun v => wt v sigma) start r i (k * D + d) in
    let positions := fun i k d => if deformable then (start i k d + offset i k d)%R else start i k d in
    forall out,
      returned pout return_sorted return_padded cout (table (length cids) cout (conv w (fun v => wt v sigma) positions r)) = Ok out ->
      kpconv_gpu active bactive warp time eps layer feats pin pout r None influence return_sorted return_padded (fun o state =>
        o = out /\
        regularization_loss GPU layer state =
          if deformable then
            Ok (sum_over (seq 0 (length cids)) (fun i => sum_over (seq 0 K) (fun k =>
                  fold_right Rmin (Q2R flt_max) (map (fun p =>
                    (norm D (fun d => delta rows crows p i d / Q2R r - positions i k d) / sigma) ^ 2)
                    (near_points D r rows ids crows cids i)))) +
                sum_over (seq 0 (length cids)) (fun i => sum_over (seq 0 K) (fun k => sum_over (seq 0 K) (fun k' =>
                  if k =? k' then 0 else wt (norm D (fun d => positions i k' d - positions i k d)) sigma))))%R
          else Err AttributeError).
Proof. exact C55_kpconv_partial_proof. Qed.
Print Assumptions C55_kpconv_partial.

(** C55. With a number of input features above 8 that is no multiple of 8, for
    which the fallback works (C34), every convolution with the CUDA operations
    raises an exception, whatever the neighborhood. *)
Theorem C55_features_refuted :
  forall active pactive bactive warp time eps feats pin pout r x v cin F return_sorted return_padded,
    given feats pin cin F -> 8 < cin -> cin mod 8 <> 0 -> dpdf x = Some v ->
    (forall layer bandwidth P,
       ~ mcconv_gpu active pactive bactive warp time eps layer feats pin pout r (Some x) bandwidth return_sorted return_padded P) /\
    (forall layer bandwidth P,
       ~ pointconv_gpu active pactive bactive warp time eps layer feats pin pout r (Some x) bandwidth return_sorted return_padded P) /\
    (forall layer influence P,
       ~ kpconv_gpu active bactive warp time eps layer feats pin pout r (Some x) influence return_sorted return_padded P).
Proof. exact C55_features_refuted_proof. Qed.
Print Assumptions C55_features_refuted.

Example C55_local_pooling_partial_ex :
  device_ok ex55_active 3 5 32 /\
  cuda_workable (scan_limit ex55_active 32) (1#1000) 2 1 exN_rows exN_ids (seg 2 exN_rows exN_ids 2) exN_rows exN_ids (seg 2 exN_rows exN_ids 2) /\
  map (near_points 2 1 exN_rows exN_ids exN_rows exN_ids) (seq 0 6) = [[0;1];[0;1];[2];[3];[4;5];[4;5]] /\
  given (Feat 2 (inr exN_F)) (seg 2 exN_rows exN_ids 2) 2 exN_F /\
  forall f, returned (seg 2 exN_rows exN_ids 2) false false 2 (table 6 2 f) = Ok (Feat 2 (inr (table 6 2 f))).
Proof. exact C55_local_pooling_partial_ex_proof. Qed.

Example C55_mcconv_partial_ex :
  exists layer,
    device_ok ex55_active 3 5 32 /\
    cuda_workable (scan_limit ex55_active 32) (1#1000) 2 1 exN_rows exN_ids (seg 2 exN_rows exN_ids 2) exN_rows exN_ids (seg 2 exN_rows exN_ids 2) /\
    length exN_ids <= scan_limit ex55_active 32 /\
    mk_mcconv 2 4 2 2 [3;8] "ReLU" (fun k idx => INR (k + hd 0 idx)) (fun _ _ => 0%R) (fun idx => INR (hd 0 idx)) = Ok layer /\
    activation "ReLU" (fun x => Rmax 0 x) /\ SpecGpuBasis.supported (last [3;8] 0 * 2) 2 /\
    given (Feat 2 (inr exN_F)) (seg 2 exN_rows exN_ids 2) 2 exN_F /\
    forall f, returned (seg 2 exN_rows exN_ids 2) true false 4 (table 6 4 f) = Ok (Feat 4 (inr (table 6 4 f))).
Proof. exact C55_mcconv_partial_ex_proof. Qed.

Example C55_pointconv_partial_ex :
  device_ok ex55_active 3 5 32 /\
  cuda_workable (scan_limit ex55_active 32) (1#1000) 2 1 exN_rows exN_ids (seg 2 exN_rows exN_ids 2) [[1#2;1#2]] [0] (seg 2 [[1#2;1#2]] [0] 1) /\
  length exN_ids <= scan_limit ex55_active 32 /\ SpecGpuBasis.supported 16 2 /\ activation "elu" (fun x => if Rlt_dec 0 x then x else exp x - 1)%R /\
  given (Feat 2 (inr exN_F)) (seg 2 exN_rows exN_ids 2) 2 exN_F /\
  near_points 2 1 exN_rows exN_ids [[1#2;1#2]] [0] 0 = [0;1] /\
  (exists mx, is_max (map (density 2 (repeat (1/5)%R 2) (repeat (1#1) 2) exN_rows exN_ids) (near_points 2 1 exN_rows exN_ids [[1#2;1#2]] [0] 0)) mx) /\
  forall f, returned (seg 2 [[1#2;1#2]] [0] 1) false false 3 (table 1 3 f) = Ok (Feat 3 (inr (table 1 3 f))).
Proof. exact C55_pointconv_partial_ex_proof. Qed.

Example C55_kpconv_partial_ex :
  exists layer,
    device_ok ex55_active 3 5 32 /\
    cuda_workable (scan_limit ex55_active 32) (1#1000) 2 1 exN_rows exN_ids (seg 2 exN_rows exN_ids 2) exN_rows exN_ids (seg 2 exN_rows exN_ids 2) /\
    mk_kpconv 2 4 9 2 true "linear" (Some (ttab [9; 2] (fun idx => match idx with [k; d] => (fun k d => INR (k + d)) k d | _ => 0%R end)))
      (fun _ => Err ValueError) (fun idx => INR (hd 0 idx)) (fun idx => INR (hd 0 idx)) = Ok layer /\
    weighting "linear" (fun v s => Rmax 0 (1 - v / s))%R /\ given (Feat 2 (inr exN_F)) (seg 2 exN_rows exN_ids 2) 2 exN_F.
Proof. exact C55_kpconv_partial_ex_proof. Qed.

(** Nine features: the fallback gives a result. *)
Example C55_features_refuted_ex :
  let F := repeat (repeat 1%R 9) 6 in
  given (Feat 9 (inr F)) (seg 2 exN_rows exN_ids 2) 9 F /\ 9 mod 8 <> 0 /\
  exists layer state out,
    kpconv_call GPU (1#1000) (find_neighbors_tf GPU) layer (Feat 9 (inr F)) (seg 2 exN_rows exN_ids 2) (seg 2 exN_rows exN_ids 2) 1 None None false false = Ok (out, state).
Proof. exact C55_features_refuted_ex_proof. Qed.
