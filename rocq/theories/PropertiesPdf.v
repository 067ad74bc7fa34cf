(** Densities (C27-C29).
    Generated by tools/gen_props.py from PdfProofs.v: statements only. *)
From Coq Require Import List Arith ZArith QArith Reals Qreals Lia Lra Bool Permutation Sorted.
From Verif Require Import Tensor TensorFacts Spec PointCloud SpecCloud QFacts
  Grid SpecGrid GridFacts Neighbors SpecNeighbors NeighborFacts NeighborProofs
  Neighborhood NeighborhoodFacts Sampling SpecSampling SamplingFacts SamplingProofs Pdf SpecPdf PdfFacts PdfInsideFacts.
From Verif Require Import PdfProofs.
Import ListNotations.
Local Open Scope nat_scope.

(** C27: applied to the neighborhood of a grid's own points, the density op
    gives for every point, in the order of the sorted points, the kernel
    density estimate; it is positive. *)
Theorem C27_density_partial :
  forall dev eps D rows ids B cs g radii max_neighbors n bw mode,
    usable eps D rows ids B cs g -> radii_match D radii cs -> valid_sizes D radii -> ids <> [] ->
    snd (mk_nbh (find_neighbors_tf GPU) g radii None max_neighbors) = Ok n ->
    length bw = D -> Forall (fun x => (0 < x)%R) bw ->
    compute_pdf_tf dev n bw mode = Ok (map (density D bw (all_dims D radii) rows ids) (gsidx g)) /\
    Permutation (gsidx g) (seq 0 (length ids)) /\
    pts (nsampled n) = map (fun i => nth i rows []) (gsidx g) /\
    forall i, i < length ids -> (0 < density D bw (all_dims D radii) rows ids i)%R.
Proof. exact C27_density_partial_proof. Qed.
Print Assumptions C27_density_partial.

Example C27_density_partial_ex :
  exists g n, usable (1#1000) 2 exN_rows exN_ids 2 [1#1] g /\ radii_match 2 [1#1] [1#1] /\ valid_sizes 2 [1#1] /\
    snd (mk_nbh (find_neighbors_tf GPU) g [1#1] None 0) = Ok n /\ gsidx g = [4;5;3;2;0;1] /\
    Forall (fun x => (0 < x)%R) [2%R; (1/2)%R] /\
    map (close_points 2 [1#1;1#1] exN_rows exN_ids) (seq 0 6) = [[0;1];[0;1];[2];[3];[4;5];[4;5]] /\
    density 2 [2%R; (1/2)%R] [1#1;1#1] exN_rows exN_ids 2 = (/ (2 * PI))%R.
Proof. exact C27_density_partial_ex_proof. Qed.

(** C27: reordering and translating the points only reorders the densities. *)
Theorem C27_invariant_partial :
  forall dev eps D rows ids B cs g n rows' ids' B' cs' g' n' s t radii max_neighbors bw mode v v',
    usable eps D rows ids B cs g -> usable eps D rows' ids' B' cs' g' ->
    radii_match D radii cs -> radii_match D radii cs' -> valid_sizes D radii -> ids <> [] ->
    snd (mk_nbh (find_neighbors_tf GPU) g radii None max_neighbors) = Ok n ->
    snd (mk_nbh (find_neighbors_tf GPU) g' radii None max_neighbors) = Ok n' ->
    length bw = D -> Forall (fun x => (0 < x)%R) bw ->
    moved_copy D s t rows ids rows' ids' ->
    compute_pdf_tf dev n bw mode = Ok v -> compute_pdf_tf dev n' bw mode = Ok v' ->
    forall k k', k < length ids -> k' < length ids ->
      nth (nth k' (gsidx g') 0) s 0 = nth k (gsidx g) 0 -> nth k' v' 0%R = nth k v 0%R.
Proof. exact C27_invariant_partial_proof. Qed.
Print Assumptions C27_invariant_partial.

Example C27_invariant_partial_ex :
  exists g g' n n', usable (1#1000) 2 exN_rows exN_ids 2 [1#1] g /\ usable (1#1000) 2 exP_rows [1;1;0;0;0;0] 3 [1#1] g' /\
    snd (mk_nbh (find_neighbors_tf GPU) g [1#1] None 0) = Ok n /\
    snd (mk_nbh (find_neighbors_tf GPU) g' [1#1] None 0) = Ok n' /\
    moved_copy 2 [5;4;0;3;2;1] (fun d => match d with O => 1%Q | S _ => (-1)%Q end) exN_rows exN_ids exP_rows [1;1;0;0;0;0] /\
    gsidx g = [4;5;3;2;0;1] /\ gsidx g' = [0;1;3;4;2;5].
Proof. exact C27_invariant_partial_ex_proof. Qed.

(** C27: the function density_estimation never returns an estimate. *)
Theorem C27_function_refuted :
  forall dev eps search p bw scaling mode normalize, mode <> KNoPdf ->
    exists e, density_estimation dev eps search p bw scaling mode normalize = Err e.
Proof. exact C27_function_refuted_proof. Qed.
Print Assumptions C27_function_refuted.

(** C28: after any sequence of compute_pdf/get_pdf calls, get_pdf gives for
    every row of the neighbor list the density of its point (divided by the
    number of neighbors of its center if requested), for the arguments of the
    last compute_pdf, or of the first get_pdf if there was no compute_pdf
    before it. *)
Theorem C28_get_pdf_partial :
  forall dev eps D rows ids B cs g ceps crows cids CB cp radii max_neighbors sample n calls bw mode normalize,
    usable eps D rows ids B cs g -> radii_match D radii cs -> valid_sizes D radii -> ids <> [] ->
    (sample = None \/
     sample = Some cp /\ cloud GPU ceps D crows cids CB cp /\ cids <> [] /\ Forall (fun b => b < B) cids) ->
    snd (mk_nbh (find_neighbors_tf GPU) g radii sample max_neighbors) = Ok n ->
    Forall (fun c => valid_bandwidth D (call_bw c)) calls -> valid_bandwidth D bw ->
    let search := find_neighbors_tf GPU in let kde := compute_pdf_tf dev in
    let value := fun a => map (row_density D (all_dims D radii) rows ids (norig n) (fst (fst a)) (snd (fst a)) (snd a)) (norig n) in
    snd (get_pdf dev search kde (pdf_run dev search kde (DNbh n None) calls) bw mode normalize)
    = Ok (value (match effective calls with Some a => a | None => (bw, mode, normalize) end)).
Proof. exact C28_get_pdf_partial_proof. Qed.
Print Assumptions C28_get_pdf_partial.

Example C28_get_pdf_partial_ex :
  exists g n, usable (1#1000) 2 exN_rows exN_ids 2 [1#1] g /\ radii_match 2 [1#1] [1#1] /\ valid_sizes 2 [1#1] /\
    snd (mk_nbh (find_neighbors_tf GPU) g [1#1] (Some (seg 2 exN_centers exN_cids 2)) 0) = Ok n /\
    norig n = [(0,0);(1,1);(4,4)] /\ valid_bandwidth 2 [(1/5)%R] /\
    effective [PGet [1%R] KConstant true; PGet [2%R] KConstant false] = Some ([1%R], KConstant, true) /\
    effective [PGet [1%R] KConstant true; PCompute [2%R] KNoPdf false; PGet [3%R] KConstant true] = Some ([2%R], KNoPdf, false).
Proof. exact C28_get_pdf_partial_ex_proof. Qed.

(** C28: the two functions outside of the class never return a density. *)
Theorem C28_function_refuted :
  forall dev eps search p nbs bw scaling mode normalize, mode <> KNoPdf ->
    exists e, density_estimation_in_neighborhoods dev eps search p nbs bw scaling mode normalize = Err e.
Proof. exact C28_function_refuted_proof. Qed.
Print Assumptions C28_function_refuted.

(** C27: without a density (KDEMode.no_pdf) every point has the value one,
    divided by the number of points on request. *)
Theorem C27_no_pdf :
  forall dev eps search p bw scaling normalize,
    density_estimation dev eps search p bw scaling KNoPdf normalize
    = Ok (map (fun _ => if normalize then (1 / INR (length (pts p)))%R else 1%R) (seq 0 (length (pts p)))).
Proof. exact C27_no_pdf_proof. Qed.
Print Assumptions C27_no_pdf.

Example C27_no_pdf_ex :
  density_estimation GPU (1#1000) (find_neighbors_tf GPU) (seg 2 exN_rows exN_ids 2) [1%R] [1#1] KNoPdf true = Ok (repeat (1 / 6)%R 6).
Proof. exact C27_no_pdf_ex_proof. Qed.

(** C28: likewise for a neighbor list ordered by centers: one, divided by the
    number of neighbors of the center on request. *)
Theorem C28_no_pdf :
  forall dev eps search p nbs bw scaling normalize, Sorted le (map snd nbs) ->
    density_estimation_in_neighborhoods dev eps search p nbs bw scaling KNoPdf normalize
    = Ok (map (fun q => if normalize then (1 / INR (count_occ Nat.eq_dec (map snd nbs) (snd q)))%R else 1%R) nbs).
Proof. exact C28_no_pdf_proof. Qed.
Print Assumptions C28_no_pdf.

Example C28_no_pdf_ex :
  density_estimation_in_neighborhoods GPU (1#1000) (find_neighbors_tf GPU) (seg 2 exN_rows exN_ids 2) [(0,0);(1,0);(3,2)] [1%R] [1#1] KNoPdf true
  = Ok [(1 / 2)%R; (1 / 2)%R; (1 / 1)%R].
Proof. exact C28_no_pdf_ex_proof. Qed.

(** C29: the value for a row of the neighbor list is the kernel sum over the
    rows of the same center. *)
Theorem C29_inside_partial :
  forall dev n D M bw mode,
    rshape (nranges n) = [M] -> 0 < M -> delimits (rdata (nranges n)) (nnbs n) M ->
    dim (gcloud (ngrid n)) = D -> Forall (fun q => fst q < length (gspts (ngrid n))) (nnbs n) ->
    length bw = D -> length (nradii n) = D ->
    let pt := fun q : nat * nat => nth (fst q) (gspts (ngrid n)) [] in
    compute_pdf_inside dev n bw mode = Ok (map (fun q =>
      (fold_right Rplus 0 (map (fun q' => kernel D bw (nradii n) (pt q) (pt q'))
         (filter (fun q' => Nat.eqb (snd q') (snd q)) (nnbs n))) / product_over (seq 0 D) (fun d => nth d bw 0))%R) (nnbs n)).
Proof. exact C29_inside_partial_proof. Qed.
Print Assumptions C29_inside_partial.

Example C29_inside_partial_ex :
  exists g n, mk_grid GPU (1#1000) (seg 2 exN_rows exN_ids 2) [1#1] = Ok g /\
    snd (mk_nbh (find_neighbors_tf GPU) g [1#1] None 0) = Ok n /\
    rshape (nranges n) = [6] /\ delimits (rdata (nranges n)) (nnbs n) 6 /\ dim (gcloud (ngrid n)) = 2 /\
    Forall (fun q => fst q < length (gspts (ngrid n))) (nnbs n) /\ length (nradii n) = 2 /\
    nnbs n = [(0,0);(1,0);(0,1);(1,1);(2,2);(3,3);(4,4);(5,4);(4,5);(5,5)].
Proof. exact C29_inside_partial_ex_proof. Qed.

(** C29: with a single center the ranges of the search are a scalar and the
    op fails. *)
Theorem C29_single_center_refuted :
  forall dev n bw mode, rshape (nranges n) = [] -> exists e, compute_pdf_inside dev n bw mode = Err e.
Proof. exact C29_single_center_refuted_proof. Qed.
Print Assumptions C29_single_center_refuted.
