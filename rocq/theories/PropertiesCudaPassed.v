(** Layers with the CUDA operations and neighborhoods made before (C43, C55)
    Generated by tools/gen_props.py from CudaPassedProofs.v: statements only. *)
From Coq Require Import String List Arith ZArith NArith QArith Qround Qreals Reals Lia Lra Bool Permutation.
From Verif Require Import Tensor TensorFacts Spec SpecText TextFacts PointCloud SpecCloud History PointCloudFacts QFacts Grid SpecGrid GridFacts Neighbors SpecNeighbors NeighborFacts NeighborProofs Neighborhood NeighborhoodFacts
  SamplingFacts SamplingProofs Pdf SpecPdf PdfFacts PdfProofs RTensor RTensorFacts Layers SpecLayers LayerFacts LayerLink LayerProofs ConvProofs
  Cuda CudaFacts CudaExec GpuGrid GpuGridFacts GpuNeighbors GpuNeighborFacts
  GpuBasis GpuBasisFacts SpecGpuBasis GpuBasisProofs GpuPdf SpecGpuPdf GpuPdfFacts GpuPdfProofs
  CudaLayers SpecCudaLayers CudaLayerFacts CudaDensityFacts CudaConvFacts CudaLayerProofs GpuNeighborProofs LimitFacts LimitProofs SpecCudaPassed.
From Verif Require Import CudaPassedProofs.
Import ListNotations.
Local Open Scope nat_scope.

(** C55, MCConv with a neighborhood made before with radius [r], whose densities
    may have been requested before with another bandwidth: the points within [r]
    contribute, with differences divided by the radius [r'] of the call, divided
    by the density of the first request. *)
Theorem C55_mcconv_neighborhood_partial :
  forall active pactive bactive warp time eps D r r' rows ids pin crows cids pout cin cout mlps sizes act a w b fw layer feats F
         earlier bandwidth return_sorted return_padded,
    device_ok active pactive bactive warp ->
    cuda_workable (scan_limit active warp) eps D r rows ids pin crows cids pout -> length ids <= scan_limit active warp ->
    mk_mcconv cin cout D mlps sizes act w b fw = Ok layer -> 0 < cout -> activation act a ->
    SpecGpuBasis.supported (last sizes 0 * mlps) cin ->
    given feats pin cin F -> (0 < used_bandwidth earlier bandwidth)%R ->
    let factor := ((0.39894228 * sqrt (2 * PI)) ^ D)%R in
    (1 - 1 / 100000000 <= factor <= 1)%R /\
    forall out,
      returned pout return_sorted return_padded cout (table (length cids) cout (fun i o =>
        mc_formula D r rows ids crows cids F cin cout mlps sizes a w b fw r'
           (fun p _ => density D (repeat (used_bandwidth earlier bandwidth) D) (repeat r D) rows ids p) i o / factor)%R) = Ok out ->
      shared_neighborhood active pactive warp time eps D pin pout r earlier (fun x =>
        mcconv_gpu active pactive bactive warp time eps layer feats pin pout r' (Some x) bandwidth return_sorted return_padded (fun o => o = out)).
Proof. exact C55_mcconv_neighborhood_partial_proof. Qed.
Print Assumptions C55_mcconv_neighborhood_partial.

(** C55, PointConv with a neighborhood made before. *)
Theorem C55_pointconv_neighborhood_partial :
  forall active pactive bactive warp time eps D r r' rows ids pin crows cids pout cin cout hidden act a axis bias w w1 b1 w2 b2 feats F
         earlier bandwidth mx return_sorted return_padded,
    device_ok active pactive bactive warp ->
    cuda_workable (scan_limit active warp) eps D r rows ids pin crows cids pout -> length ids <= scan_limit active warp ->
    SpecGpuBasis.supported hidden cin -> activation act a -> given feats pin cin F -> (0 < used_bandwidth earlier bandwidth)%R ->
    let dens := density D (repeat (used_bandwidth earlier bandwidth) D) (repeat r D) rows ids in
    (forall i, i < length cids -> near_points D r rows ids crows cids i <> [] ->
       is_max (map dens (near_points D r rows ids crows cids i)) (mx i)) ->
    forall out,
      returned pout return_sorted return_padded cout (table (length cids) cout
        (pt_formula D r rows ids crows cids F cin hidden a axis bias w w1 b1 w2 b2 (fun p _ => dens p) mx)) = Ok out ->
      shared_neighborhood active pactive warp time eps D pin pout r earlier (fun x =>
        pointconv_gpu active pactive bactive warp time eps (mk_pointconv cin cout D hidden act axis bias w w1 b1 w2 b2)
          feats pin pout r' (Some x) bandwidth return_sorted return_padded (fun o => o = out)).
Proof. exact C55_pointconv_neighborhood_partial_proof. Qed.
Print Assumptions C55_pointconv_neighborhood_partial.

(** C55, KPConv with a neighborhood made before with radius [r], in a call with
    radius [r']. *)
Theorem C55_kpconv_neighborhood_partial :
  forall active pactive bactive warp time eps D r r' rows ids pin crows cids pout cin cout K deformable interpolation wt kernel_points w wo
         spherical layer feats F earlier influence return_sorted return_padded,
    device_ok active pactive bactive warp ->
    cuda_workable (scan_limit active warp) eps D r rows ids pin crows cids pout ->
    (forall b, earlier = Some b -> (0 < b)%R /\ length ids <= scan_limit active warp) ->
    mk_kpconv cin cout K D deformable interpolation
      (Some (ttab [K; D] (fun idx => match idx with [k; d] => kernel_points k d | _ => 0%R end))) spherical w wo = Ok layer ->
    0 < cin /\ (cin < 8 \/ cin mod 8 = 0) -> 0 < K <= 64 -> weighting interpolation wt -> given feats pin cin F ->
    let sigma := match influence with None => 1%R | Some s => (s / Q2R r')%R end in
    let start := fun (_ k d : nat) => (kernel_points k d * (3 / 4))%R in
    let conv := kp_formula D r rows ids crows cids F cin K in
    let offset := fun i k d => conv wo (fun v => wt v sigma) start r' i (k * D + d) in
    let positions := fun i k d => if deformable then (start i k d + offset i k d)%R else start i k d in
    forall out,
      returned pout return_sorted return_padded cout (table (length cids) cout (conv w (fun v => wt v sigma) positions r')) = Ok out ->
      shared_neighborhood active pactive warp time eps D pin pout r earlier (fun x =>
        kpconv_gpu active bactive warp time eps layer feats pin pout r' (Some x) influence return_sorted return_padded (fun o state =>
          o = out /\
          regularization_loss GPU layer state =
            if deformable then
              Ok (sum_over (seq 0 (length cids)) (fun i => sum_over (seq 0 K) (fun k =>
                    fold_right Rmin (Q2R flt_max) (map (fun p =>
                      (norm D (fun d => delta rows crows p i d / Q2R r' - positions i k d) / sigma) ^ 2)
                      (near_points D r rows ids crows cids i)))) +
                  sum_over (seq 0 (length cids)) (fun i => sum_over (seq 0 K) (fun k => sum_over (seq 0 K) (fun k' =>
                    if k =? k' then 0 else wt (norm D (fun d => positions i k' d - positions i k d)) sigma))))%R
            else Err AttributeError)).
Proof. exact C55_kpconv_neighborhood_partial_proof. Qed.
Print Assumptions C55_kpconv_neighborhood_partial.

(** Concrete cases: the densities were requested before with bandwidth 1/3, the
    radius of the call is 2, that of the neighborhood 1. *)
Example C55_mcconv_neighborhood_partial_ex :
  exists layer,
    device_ok ex55_active 3 5 32 /\
    cuda_workable (scan_limit ex55_active 32) (1#1000) 2 1 exN_rows exN_ids (seg 2 exN_rows exN_ids 2) exN_rows exN_ids (seg 2 exN_rows exN_ids 2) /\
    length exN_ids <= scan_limit ex55_active 32 /\
    mk_mcconv 2 4 2 2 [3;8] "ReLU" (fun k idx => INR (k + hd 0 idx)) (fun _ _ => 0%R) (fun idx => INR (hd 0 idx)) = Ok layer /\
    activation "ReLU" (fun x => Rmax 0 x) /\ SpecGpuBasis.supported (last [3;8] 0 * 2) 2 /\
    given (Feat 2 (inr exN_F)) (seg 2 exN_rows exN_ids 2) 2 exN_F /\ (0 < used_bandwidth (Some (1/3)) (1/5))%R /\
    exists out, shared_neighborhood ex55_active 3 32 0 (1#1000) 2 (seg 2 exN_rows exN_ids 2) (seg 2 exN_rows exN_ids 2) 1 (Some (1/3)%R) (fun x =>
      mcconv_gpu ex55_active 3 5 32 0 (1#1000) layer (Feat 2 (inr exN_F)) (seg 2 exN_rows exN_ids 2) (seg 2 exN_rows exN_ids 2) 2 (Some x) (1/5)%R false false
        (fun o => o = out)).
Proof. exact C55_mcconv_neighborhood_partial_ex_proof. Qed.

Example C55_pointconv_neighborhood_partial_ex :
  device_ok ex55_active 3 5 32 /\
  cuda_workable (scan_limit ex55_active 32) (1#1000) 2 1 exN_rows exN_ids (seg 2 exN_rows exN_ids 2) [[1#2;1#2]] [0] (seg 2 [[1#2;1#2]] [0] 1) /\
  length exN_ids <= scan_limit ex55_active 32 /\ SpecGpuBasis.supported 16 2 /\ activation "elu" (fun x => if Rlt_dec 0 x then x else exp x - 1)%R /\
  given (Feat 2 (inr exN_F)) (seg 2 exN_rows exN_ids 2) 2 exN_F /\ (0 < used_bandwidth None (1/5))%R /\
  near_points 2 1 exN_rows exN_ids [[1#2;1#2]] [0] 0 = [0;1] /\
  (exists mx, is_max (map (density 2 (repeat (used_bandwidth None (1/5)) 2) (repeat (1#1) 2) exN_rows exN_ids)
                        (near_points 2 1 exN_rows exN_ids [[1#2;1#2]] [0] 0)) mx) /\
  forall f, returned (seg 2 [[1#2;1#2]] [0] 1) false false 3 (table 1 3 f) = Ok (Feat 3 (inr (table 1 3 f))).
Proof. exact C55_pointconv_neighborhood_partial_ex_proof. Qed.

Example C55_kpconv_neighborhood_partial_ex :
  exists layer,
    device_ok ex55_active 3 5 32 /\
    cuda_workable (scan_limit ex55_active 32) (1#1000) 2 1 exN_rows exN_ids (seg 2 exN_rows exN_ids 2) exN_rows exN_ids (seg 2 exN_rows exN_ids 2) /\
    mk_kpconv 2 4 9 2 true "linear" (Some (ttab [9; 2] (fun idx => match idx with [k; d] => (fun k d => INR (k + d)) k d | _ => 0%R end)))
      (fun _ => Err ValueError) (fun idx => INR (hd 0 idx)) (fun idx => INR (hd 0 idx)) = Ok layer /\
    weighting "linear" (fun v s => Rmax 0 (1 - v / s))%R /\ given (Feat 2 (inr exN_F)) (seg 2 exN_rows exN_ids 2) 2 exN_F /\
    exists out loss, shared_neighborhood ex55_active 3 32 0 (1#1000) 2 (seg 2 exN_rows exN_ids 2) (seg 2 exN_rows exN_ids 2) 1 (Some (1/3)%R) (fun x =>
      kpconv_gpu ex55_active 5 32 0 (1#1000) layer (Feat 2 (inr exN_F)) (seg 2 exN_rows exN_ids 2) (seg 2 exN_rows exN_ids 2) 2 (Some x) None false false
        (fun o state => o = out /\ regularization_loss GPU layer state = Ok loss)).
Proof. exact C55_kpconv_neighborhood_partial_ex_proof. Qed.

(** C43, partial, for the neighborhood object: with a limit that no center
    exceeds it has all neighbors, each once, for every device, schedule and
    clock. *)
Theorem C43_neighborhood_partial :
  forall active pactive bactive warp time eps D r rows ids pin crows cids pout k,
    device_ok active pactive bactive warp ->
    cuda_workable (scan_limit active warp) eps D r rows ids pin crows cids pout ->
    (forall i, i < length cids -> length (near_points D r rows ids crows cids i) <= k) ->
    mk_grid_gpu (active KKeys) warp eps pin (repeat r D) (fun g =>
      neighborhood_gpu active warp time g (repeat r D) (Some pout) k (fun n =>
        NoDup (norig n) /\ forall j i, In (j, i) (norig n) <-> near D r rows ids crows cids j i)).
Proof. exact C43_neighborhood_partial_proof. Qed.
Print Assumptions C43_neighborhood_partial.

(** C43 refuted for the neighborhood object: with limit one, the two neighbors of
    the only center make it fail. *)
Theorem C43_neighborhood_refuted :
  mk_grid_gpu 1 32 (1#1000) (seg 2 ex43_rows [0;0] 1) [1#1] (fun g =>
    ~ neighborhood_gpu (fun _ => 1) 32 0 g [1#1] (Some (seg 2 [[0;0]%Q] [0] 1)) 1 (fun _ => True)).
Proof. exact C43_neighborhood_refuted_proof. Qed.
Print Assumptions C43_neighborhood_refuted.

(** At most two points are near a center. *)
Example C43_neighborhood_partial_ex :
  device_ok ex55_active 3 5 32 /\
  cuda_workable (scan_limit ex55_active 32) (1#1000) 2 1 exN_rows exN_ids (seg 2 exN_rows exN_ids 2) exN_rows exN_ids (seg 2 exN_rows exN_ids 2) /\
  (forall i, i < length exN_ids -> length (near_points 2 1 exN_rows exN_ids exN_rows exN_ids i) <= 2).
Proof. exact C43_neighborhood_partial_ex_proof. Qed.
