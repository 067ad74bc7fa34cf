(** Convolution layers.
    Generated by tools/gen_props.py from ConvProofs.v: statements only. *)
From Coq Require Import String List Arith ZArith QArith Reals Qreals Lia Lra Bool Permutation.
From Verif Require Import Tensor TensorFacts Spec SpecText TextFacts PointCloud SpecCloud PointCloudFacts QFacts Grid SpecGrid GridFacts
  Neighbors SpecNeighbors NeighborFacts NeighborProofs Neighborhood NeighborhoodFacts NeighborhoodProofs
  Sampling SpecSampling SamplingFacts SamplingProofs Hierarchy SpecHierarchy HierarchyFacts Pdf SpecPdf PdfFacts PdfProofs
  RTensor RTensorFacts Layers SpecLayers LayerFacts LayerLink LayerProofs.
From Verif Require Import ConvProofs.
Import ListNotations.
Local Open Scope nat_scope.

(** C34, MCConv: for centers and points of two clouds, the output is
    the sum over the points within the radius of the features times the kernel
    MLPs of the difference divided by the radius, divided by the density. *)
Theorem C34_mcconv_partial :
  forall eps D r rows ids pin crows cids pout cin cout mlps sizes act a w b fw layer feats F bandwidth return_sorted return_padded,
    workable eps D r rows ids pin crows cids pout ->
    mk_mcconv cin cout D mlps sizes act w b fw = Ok layer -> 0 < cout -> activation act a ->
    given feats pin cin F -> (0 < bandwidth)%R ->
    mcconv_call GPU eps (find_neighbors_tf GPU) (compute_pdf_tf GPU) layer feats pin pout r None bandwidth return_sorted return_padded
    = returned pout return_sorted return_padded cout (table (length cids) cout
        (mc_formula D r rows ids crows cids F cin cout mlps sizes a w b fw r
           (fun p _ => density D (repeat bandwidth D) (repeat r D) rows ids p))).
Proof. exact C34_mcconv_partial_proof. Qed.
Print Assumptions C34_mcconv_partial.

(** C34, MCConv with a neighborhood made before, possibly with another radius
    and with densities computed before: the points within the radius of the
    neighborhood contribute, divided by the stored density. *)
Theorem C34_mcconv_neighborhood_partial :
  forall eps D rows ids B cs g ceps crows cids CB pin pout radii max_neighbors n calls r
         cin cout mlps sizes act a w b fw layer feats F bandwidth return_sorted return_padded,
    usable eps D rows ids B cs g -> radii_match D radii cs -> valid_sizes D radii -> ids <> [] ->
    (exists eps' B', cloud GPU eps' D rows ids B' pin) ->
    cloud GPU ceps D crows cids CB pout -> cids <> [] -> Forall (fun b => b < B) cids ->
    snd (mk_nbh (find_neighbors_tf GPU) g radii (Some pout) max_neighbors) = Ok n ->
    Forall (fun c => valid_bandwidth D (call_bw c)) calls ->
    mk_mcconv cin cout D mlps sizes act w b fw = Ok layer -> 0 < cout -> activation act a ->
    given feats pin cin F -> (0 < bandwidth)%R ->
    let search := find_neighbors_tf GPU in let kde := compute_pdf_tf GPU in
    let args := match effective calls with Some a => a | None => ([bandwidth], KConstant, false) end in
    mcconv_call GPU eps search kde layer feats pin pout r (Some (pdf_run GPU search kde (DNbh n None) calls))
      bandwidth return_sorted return_padded
    = returned pout return_sorted return_padded cout (table (length cids) cout
        (mc_formula D (nth 0 (all_dims D radii) 0%Q) rows ids crows cids F cin cout mlps sizes a w b fw r
           (fun p i => row_density D (all_dims D radii) rows ids (norig n) (fst (fst args)) (snd (fst args)) (snd args) (p, i)))).
Proof. exact C34_mcconv_neighborhood_partial_proof. Qed.
Print Assumptions C34_mcconv_neighborhood_partial.

(** C34, PointConv. *)
Theorem C34_pointconv_partial :
  forall eps D r rows ids pin crows cids pout cin cout hidden act a axis bias w w1 b1 w2 b2 feats F bandwidth mx
         return_sorted return_padded,
    workable eps D r rows ids pin crows cids pout -> 2 <= length cids -> 0 < cin -> 0 < hidden -> activation act a ->
    given feats pin cin F -> (0 < bandwidth)%R ->
    let dens := density D (repeat bandwidth D) (repeat r D) rows ids in
    (forall i, i < length cids -> near_points D r rows ids crows cids i <> [] ->
       is_max (map dens (near_points D r rows ids crows cids i)) (mx i)) ->
    pointconv_call GPU eps (find_neighbors_tf GPU) (compute_pdf_tf GPU)
      (mk_pointconv cin cout D hidden act axis bias w w1 b1 w2 b2) feats pin pout r None bandwidth return_sorted return_padded
    = returned pout return_sorted return_padded cout (table (length cids) cout
        (pt_formula D r rows ids crows cids F cin hidden a axis bias w w1 b1 w2 b2 (fun p _ => dens p) mx)).
Proof. exact C34_pointconv_partial_proof. Qed.
Print Assumptions C34_pointconv_partial.

(** C34, PointConv. With a single output point the call fails. *)
Theorem C34_pointconv_single_refuted :
  forall eps D r rows ids pin crows cids pout cin cout hidden act a axis bias w w1 b1 w2 b2 feats F bandwidth
         return_sorted return_padded,
    workable eps D r rows ids pin crows cids pout -> length cids = 1 -> activation act a ->
    given feats pin cin F -> (0 < bandwidth)%R ->
    pointconv_call GPU eps (find_neighbors_tf GPU) (compute_pdf_tf GPU)
      (mk_pointconv cin cout D hidden act axis bias w w1 b1 w2 b2) feats pin pout r None bandwidth return_sorted return_padded
    = Err InvalidArgument.
Proof. exact C34_pointconv_single_refuted_proof. Qed.
Print Assumptions C34_pointconv_single_refuted.

(** C34, KPConv: every kernel point k of center i, at 3/4 of its given position
    (plus, for a deformable layer, the offset that the same kind of
    convolution with the second set of weights gives), contributes the features
    of the points within the radius weighted by their distance to it. *)
Theorem C34_kpconv_partial :
  forall eps D r rows ids pin crows cids pout cin cout K deformable interpolation wt kernel_points w wo spherical layer
         feats F influence return_sorted return_padded,
    workable eps D r rows ids pin crows cids pout ->
    mk_kpconv cin cout K D deformable interpolation
      (Some (ttab [K; D] (fun idx => match idx with [k; d] => kernel_points k d | _ => 0%R end))) spherical w wo = Ok layer ->
    0 < cin -> 0 < K -> weighting interpolation wt -> given feats pin cin F ->
    let sigma := match influence with None => 1%R | Some s => (s / Q2R r)%R end in
    let start := fun (_ k d : nat) => (kernel_points k d * (3 / 4))%R in
    let conv := kp_formula D r rows ids crows cids F cin K in
    let offset := fun i k d => conv wo (fun v => wt v sigma) start r i (k * D + d) in
    let positions := fun i k d => if deformable then (start i k d + offset i k d)%R else start i k d in
    exists state,
    kpconv_call GPU eps (find_neighbors_tf GPU) layer feats pin pout r None influence return_sorted return_padded
    = (o <- returned pout return_sorted return_padded cout (table (length cids) cout
              (conv w (fun v => wt v sigma) positions r)) ;; Ok (o, state)) /\
    regularization_loss GPU layer state =
      if deformable then
        Ok (sum_over (seq 0 (length cids)) (fun i => sum_over (seq 0 K) (fun k =>
              fold_right Rmin (Q2R flt_max) (map (fun p =>
                (norm D (fun d => delta rows crows p i d / Q2R r - positions i k d) / sigma) ^ 2)
                (near_points D r rows ids crows cids i)))) +
            sum_over (seq 0 (length cids)) (fun i => sum_over (seq 0 K) (fun k => sum_over (seq 0 K) (fun k' =>
              if k =? k' then 0 else wt (norm D (fun d => positions i k' d - positions i k d)) sigma))))%R
      else Err AttributeError.
Proof. exact C34_kpconv_partial_proof. Qed.
Print Assumptions C34_kpconv_partial.

(** C34, KPConv with a neighborhood made before, possibly with another radius. *)
Theorem C34_kpconv_neighborhood_partial :
  forall eps D rows ids B cs g ceps crows cids CB pin pout radii max_neighbors n calls r
         cin cout K deformable interpolation wt kernel_points w wo spherical layer feats F influence return_sorted return_padded,
    usable eps D rows ids B cs g -> radii_match D radii cs -> valid_sizes D radii -> ids <> [] ->
    (exists eps' B', cloud GPU eps' D rows ids B' pin) ->
    cloud GPU ceps D crows cids CB pout -> cids <> [] -> Forall (fun b => b < B) cids ->
    snd (mk_nbh (find_neighbors_tf GPU) g radii (Some pout) max_neighbors) = Ok n ->
    Forall (fun c => valid_bandwidth D (call_bw c)) calls ->
    mk_kpconv cin cout K D deformable interpolation
      (Some (ttab [K; D] (fun idx => match idx with [k; d] => kernel_points k d | _ => 0%R end))) spherical w wo = Ok layer ->
    0 < cin -> 0 < K -> weighting interpolation wt -> given feats pin cin F ->
    let search := find_neighbors_tf GPU in
    let sigma := match influence with None => 1%R | Some s => (s / Q2R r)%R end in
    let start := fun (_ k d : nat) => (kernel_points k d * (3 / 4))%R in
    let conv := kp_formula D (nth 0 (all_dims D radii) 0%Q) rows ids crows cids F cin K in
    let offset := fun i k d => conv wo (fun v => wt v sigma) start r i (k * D + d) in
    let positions := fun i k d => if deformable then (start i k d + offset i k d)%R else start i k d in
    exists state,
    kpconv_call GPU eps search layer feats pin pout r
      (Some (pdf_run GPU search (compute_pdf_tf GPU) (DNbh n None) calls)) influence return_sorted return_padded
    = (o <- returned pout return_sorted return_padded cout (table (length cids) cout
              (conv w (fun v => wt v sigma) positions r)) ;; Ok (o, state)).
Proof. exact C34_kpconv_neighborhood_partial_proof. Qed.
Print Assumptions C34_kpconv_neighborhood_partial.

(** C34, Conv1x1: one affine map of the features for every point. *)
Theorem C34_conv1x1 :
  forall p feats cin cout F w b layer return_sorted return_padded,
    mk_conv1x1 cin cout w b = Ok layer -> given feats p cin F ->
    conv1x1_call layer feats p return_sorted return_padded
    = returned p return_sorted return_padded cout (table (length (pts p)) cout (fun i o =>
        sum_over (seq 0 cin) (fun c => fval F i c * w [c; o]) + b [0%nat; o])%R).
Proof. exact C34_conv1x1_proof. Qed.
Print Assumptions C34_conv1x1.

(** C34: wrong arguments are rejected. *)
Theorem C34_rejected :
  (forall cin cout dims mlps sizes act w b fw, 0 < mlps -> cout mod mlps <> 0 ->
     mk_mcconv cin cout dims mlps sizes act w b fw = Err ValueError) /\
  (forall dev eps search kde layer feats pin pout r nb bandwidth srt pad, fch feats <> mc_in layer ->
     mcconv_call dev eps search kde layer feats pin pout r nb bandwidth srt pad = Err InvalidArgument) /\
  (forall cin cout K dims deformable interpolation custom spherical w wo, (forall wt, ~ weighting interpolation wt) ->
     mk_kpconv cin cout K dims deformable interpolation custom spherical w wo = Err KeyError) /\
  (forall cin cout K dims deformable interpolation wt spherical w wo, weighting interpolation wt -> dims <> 3 ->
     mk_kpconv cin cout K dims deformable interpolation None spherical w wo = Err ValueError).
Proof. exact C34_rejected_proof. Qed.
Print Assumptions C34_rejected.

(** C34: an unknown activation function is only noticed when the layer is
    called. *)
Theorem C34_activation_partial :
  forall eps D r rows ids pin crows cids pout cin cout mlps sizes act w b fw layer feats F bandwidth return_sorted return_padded,
    workable eps D r rows ids pin crows cids pout ->
    mk_mcconv cin cout D mlps sizes act w b fw = Ok layer -> (forall a, ~ activation act a) ->
    given feats pin cin F -> (0 < bandwidth)%R ->
    mcconv_call GPU eps (find_neighbors_tf GPU) (compute_pdf_tf GPU) layer feats pin pout r None bandwidth return_sorted return_padded
    = Err KeyError.
Proof. exact C34_activation_partial_proof. Qed.
Print Assumptions C34_activation_partial.

Theorem C34_influence_refuted :
  (forall dev eps search layer feats pin pout r nb srt pad, (0 < r)%Q ->
     kpconv_call dev eps search layer feats pin pout r nb None srt pad
     = kpconv_call dev eps search layer feats pin pout r nb (Some (Q2R r)) srt pad) /\
  exists layer feats pin pout r o o' s s',
    kpconv_call GPU (1#1000) (find_neighbors_tf GPU) layer feats pin pout r None None false false = Ok (o, s) /\
    kpconv_call GPU (1#1000) (find_neighbors_tf GPU) layer feats pin pout r None (Some (Q2R r / (5 / 2)))%R false false = Ok (o', s') /\
    o <> o'.
Proof. exact C34_influence_refuted_proof. Qed.
Print Assumptions C34_influence_refuted.

Example C34_mcconv_partial_ex :
  exists layer,
    workable (1#1000) 2 1 exN_rows exN_ids (seg 2 exN_rows exN_ids 2) exN_rows exN_ids (seg 2 exN_rows exN_ids 2) /\
    map (near_points 2 1 exN_rows exN_ids exN_rows exN_ids) (seq 0 6) = [[0;1];[0;1];[2];[3];[4;5];[4;5]] /\
    mk_mcconv 2 4 2 2 [3;5] "ReLU" (fun k idx => INR (k + hd 0 idx)) (fun _ _ => 0%R) (fun idx => INR (hd 0 idx)) = Ok layer /\
    activation "ReLU" (fun x => Rmax 0 x) /\ given (Feat 2 (inr exN_F)) (seg 2 exN_rows exN_ids 2) 2 exN_F.
Proof. exact C34_mcconv_partial_ex_proof. Qed.

Example C34_mcconv_neighborhood_partial_ex :
  exists g n layer,
    usable (1#1000) 2 exN_rows exN_ids 2 [1#1] g /\ radii_match 2 [1#1] [1#1] /\ valid_sizes 2 [1#1] /\
    cloud GPU (1#1000) 2 exN_rows exN_ids 2 (seg 2 exN_rows exN_ids 2) /\
    cloud GPU (1#1000) 2 exN_centers exN_cids 2 (seg 2 exN_centers exN_cids 2) /\ Forall (fun b => b < 2) exN_cids /\
    snd (mk_nbh (find_neighbors_tf GPU) g [1#1] (Some (seg 2 exN_centers exN_cids 2)) 0) = Ok n /\
    norig n = [(0,0);(1,1);(4,4)] /\
    Forall (fun c => valid_bandwidth 2 (call_bw c)) [PGet [1%R] KConstant true; PCompute [2%R; 3%R] KConstant false] /\
    mk_mcconv 2 4 2 2 [3;5] "elu" (fun k idx => INR (k + hd 0 idx)) (fun _ _ => 0%R) (fun idx => INR (hd 0 idx)) = Ok layer.
Proof. exact C34_mcconv_neighborhood_partial_ex_proof. Qed.

Example C34_pointconv_partial_ex :
  workable (1#1000) 2 1 exN_rows exN_ids (seg 2 exN_rows exN_ids 2) exN_rows exN_ids (seg 2 exN_rows exN_ids 2) /\
  2 <= length exN_ids /\ activation "leaky_ReLU" (fun x => if Rlt_dec 0 x then x else 2 / 10 * x)%R /\
  given (Feat 2 (inr exN_F)) (seg 2 exN_rows exN_ids 2) 2 exN_F /\
  exists mx : nat -> R, forall i, i < length exN_ids ->
    is_max (map (density 2 (repeat (1/5)%R 2) (repeat (1#1) 2) exN_rows exN_ids) (near_points 2 1 exN_rows exN_ids exN_rows exN_ids i)) (mx i).
Proof. exact C34_pointconv_partial_ex_proof. Qed.

Example C34_pointconv_single_refuted_ex :
  workable (1#1000) 2 1 exN_rows exN_ids (seg 2 exN_rows exN_ids 2) [[1#2;1#2]] [0] (seg 2 [[1#2;1#2]] [0] 1) /\
  near_points 2 1 exN_rows exN_ids [[1#2;1#2]] [0] 0 = [0;1].
Proof. exact C34_pointconv_single_refuted_ex_proof. Qed.

Example C34_kpconv_partial_ex :
  exists layer,
    workable (1#1000) 2 1 exN_rows exN_ids (seg 2 exN_rows exN_ids 2) exN_rows exN_ids (seg 2 exN_rows exN_ids 2) /\
    mk_kpconv 2 4 9 2 true "linear" (Some (ttab [9; 2] (fun idx => match idx with [k; d] => (fun k d => INR (k + d)) k d | _ => 0%R end)))
      (fun _ => Err ValueError) (fun idx => INR (hd 0 idx)) (fun idx => INR (hd 0 idx)) = Ok layer /\
    weighting "linear" (fun v s => Rmax 0 (1 - v / s))%R /\ given (Feat 2 (inr exN_F)) (seg 2 exN_rows exN_ids 2) 2 exN_F /\
    (* with one kernel point in the middle and weights 1, the features [1; 2]
       of a single neighbor at distance 1/2 give 3/2 *)
    kp_formula 2 1 exN_rows exN_ids exN_centers exN_cids exN_F 2 1 (fun _ => 1%R) (fun v => Rmax 0 (1 - v / 1))%R
      (fun _ _ _ => 0%R) 1 0 0 = (3 / 2)%R.
Proof. exact C34_kpconv_partial_ex_proof. Qed.

Example C34_kpconv_neighborhood_partial_ex :
  exists g n layer,
    usable (1#1000) 2 exN_rows exN_ids 2 [1#1] g /\ radii_match 2 [1#1] [1#1] /\ valid_sizes 2 [1#1] /\
    cloud GPU (1#1000) 2 exN_rows exN_ids 2 (seg 2 exN_rows exN_ids 2) /\
    cloud GPU (1#1000) 2 exN_centers exN_cids 2 (seg 2 exN_centers exN_cids 2) /\ Forall (fun b => b < 2) exN_cids /\
    snd (mk_nbh (find_neighbors_tf GPU) g [1#1] (Some (seg 2 exN_centers exN_cids 2)) 0) = Ok n /\
    norig n = [(0,0);(1,1);(4,4)] /\
    mk_kpconv 2 4 9 2 true "gaussian" (Some (ttab [9; 2] (fun idx => match idx with [k; d] => (fun k d => INR (k + d)) k d | _ => 0%R end)))
      (fun _ => Err ValueError) (fun idx => INR (hd 0 idx)) (fun idx => INR (hd 0 idx)) = Ok layer.
Proof. exact C34_kpconv_neighborhood_partial_ex_proof. Qed.

Example C34_conv1x1_ex :
  exists layer, mk_conv1x1 2 3 (fun idx => INR (hd 0 idx)) (fun _ => 1%R) = Ok layer /\
    given (Feat 2 (inr exN_F)) (seg 2 exN_rows exN_ids 2) 2 exN_F /\
    forall o, conv1x1_call layer (Feat 2 (inr exN_F)) (seg 2 exN_rows exN_ids 2) false false = Ok o ->
      exists T, o = Feat 3 (inr T) /\ fval T 1 2 = 5%R.
Proof. exact C34_conv1x1_ex_proof. Qed.

Example C34_rejected_ex : 5 mod 2 <> 0 /\ (forall wt, ~ weighting "cubic" wt) /\ 2 <> 3.
Proof. exact C34_rejected_ex_proof. Qed.

Example C34_activation_partial_ex :
  (forall a, ~ activation "tanh" a) /\
  exists layer, mk_mcconv 2 4 2 2 [3;5] "tanh" (fun k idx => INR (k + hd 0 idx)) (fun _ _ => 0%R) (fun idx => INR (hd 0 idx)) = Ok layer.
Proof. exact C34_activation_partial_ex_proof. Qed.
