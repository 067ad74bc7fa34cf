(** The CUDA density and its gradient (C47).
    Generated by tools/gen_props.py from GpuPdfProofs.v: statements only. *)
From Coq Require Import List Arith ZArith QArith Qreals Lia Reals Lra Machin Bool.
From Verif Require Import Tensor TensorFacts PointCloud RTensor RTensorFacts Pdf SpecPdf PdfFacts Spec SpecCloud QFacts Grid SpecGrid GridFacts Neighbors SpecNeighbors NeighborFacts NeighborProofs Neighborhood NeighborhoodFacts SamplingFacts SamplingProofs Layers LayerFacts Cuda CudaFacts MemFacts CudaUpdate GpuGrid GpuBasis
  GpuBasisFacts GpuBasisGradFacts SpecGpuBasis GpuBasisProofs GpuPdf SpecGpuPdf GpuPdfFacts.
From Verif Require Import GpuPdfProofs.
Import ListNotations.
Local Open Scope nat_scope.

(** C47. Every schedule of the CUDA operation gives the density; with mode 0
    the bandwidth is the given one, with mode 1 it is one over the square root
    of the number of points. *)
Theorem C47_density :
  forall active points nbs ends invbw invr mode D, let N := length ends in
    0 < active -> 0 < N -> 2 <= D <= 6 -> mode <> KNoPdf -> length invbw = D -> length invr = D ->
    is_tensor [N; D] points -> delimits ends nbs N -> Forall (fun q => fst q < N) nbs ->
    compute_pdf_op active points nbs ends invbw invr mode (fun out =>
      length out = N /\ forall i, i < N ->
        nth i out 0%R = cuda_density D (inverse_bandwidth mode N invbw) (fun d => nth d invr 0%R) (fun p d => tget points [p; d]) nbs i).
Proof. exact C47_density_proof. Qed.
Print Assumptions C47_density.

(** C47. The gradient operation gives the derivative of the density operation:
    for every incoming gradient and every direction in which the points are
    moved. *)
Theorem C47_gradient :
  forall active points nbs ends invbw invr grads mode D v (L : R -> R), let N := length ends in
    0 < active -> 0 < N -> 2 <= D <= 6 -> mode <> KNoPdf -> length invbw = D -> length invr = D -> length grads = N ->
    is_tensor [N; D] points -> delimits ends nbs N -> Forall (fun q => fst q < N) nbs ->
    (forall h, compute_pdf_op active (moved N D points v h) nbs ends invbw invr mode (fun out => L h = dot1 N grads out)) ->
    compute_pdf_grads_op active points nbs ends invbw invr grads mode (fun t =>
      is_tensor [N; D] t /\ derivable_pt_lim L 0 (along N D t v)).
Proof. exact C47_gradient_proof. Qed.
Print Assumptions C47_gradient.

(** C47. With a constant bandwidth the operation called by the library agrees
    with the TensorFlow fallback on the neighborhood of a grid's own points, up
    to a relative error of 1e-8 (the kernel rounds 1 / sqrt (2 PI)); so it gives
    the density of every point. *)
Theorem C47_agree :
  forall active dev eps D rows ids B cs g radii max_neighbors n bw,
    0 < active -> D <= 6 -> usable eps D rows ids B cs g -> radii_match D radii cs -> valid_sizes D radii -> ids <> [] ->
    snd (mk_nbh (find_neighbors_tf GPU) g radii None max_neighbors) = Ok n ->
    length bw = D -> Forall (fun x => (0 < x)%R) bw ->
    compute_pdf_wrapper active n bw KConstant (fun out => exists v,
      compute_pdf_tf dev n bw KConstant = Ok v /\ length v = length ids /\ length out = length ids /\
      forall k, k < length ids -> within (1 / 100000000) (nth k out 0%R) (nth k v 0%R) /\
        nth k v 0%R = density D bw (all_dims D radii) rows ids (nth k (gsidx g) 0)).
Proof. exact C47_agree_proof. Qed.
Print Assumptions C47_agree.

(** C47. The gradient the library attaches to its call is the derivative of the
    density of that call, the bandwidths and radii entering by their inverses. *)
Theorem C47_attached :
  forall active eps D rows ids B cs g radii max_neighbors n bw mode grads v,
    let N := length ids in
    let pts := fun h p d => (Q2R (nth d (nth p (gspts g) []) 0%Q) + h * v p d)%R in
    let dens := fun h i => cuda_density D (inverse_bandwidth mode N (map Rinv bw)) (fun d => / Q2R (nth d (all_dims D radii) 0%Q))%R (pts h) (nnbs n) i in
    0 < active -> D <= 6 -> usable eps D rows ids B cs g -> radii_match D radii cs -> valid_sizes D radii -> ids <> [] ->
    snd (mk_nbh (find_neighbors_tf GPU) g radii None max_neighbors) = Ok n ->
    mode <> KNoPdf -> length bw = D -> length grads = N ->
    compute_pdf_wrapper active n bw mode (fun out => out = map (dens 0%R) (seq 0 N)) /\
    compute_pdf_gradient active n bw mode grads (fun t =>
      is_tensor [N; D] t /\ derivable_pt_lim (fun h => dot1 N grads (map (dens h) (seq 0 N))) 0 (along N D t v)).
Proof. exact C47_attached_proof. Qed.
Print Assumptions C47_attached.

Example C47_density_ex :
  delimits ex47_ends ex47_nbs 2 /\ is_tensor [2; 2] ex47_points /\
  forall active, 0 < active ->
    compute_pdf_op active ex47_points ex47_nbs ex47_ends [1; 2]%R [1; 1]%R KConstant (fun out =>
      nth 0 out 0%R = (2 * ex47_c * (1 + exp (- / 2)))%R /\ nth 1 out 0%R = (2 * ex47_c)%R).
Proof. exact C47_density_ex_proof. Qed.

Example C47_gradient_ex :
  forall active v, 0 < active ->
    (exists L, forall h, compute_pdf_op active (moved 2 2 ex47_points v h) ex47_nbs ex47_ends [1; 1]%R [1; 1]%R KConstant (fun out => L h = dot1 2 [1; 0]%R out)) /\
    compute_pdf_grads_op active ex47_points ex47_nbs ex47_ends [1; 1]%R [1; 1]%R [1; 0]%R KConstant (fun t =>
      tget t [0; 0] = (ex47_c * exp (- / 2))%R /\ tget t [1; 0] = (- ex47_c * exp (- / 2))%R /\ tget t [1; 1] = 0%R).
Proof. exact C47_gradient_ex_proof. Qed.

Example C47_agree_ex :
  exists g n, usable (1#1000) 2 exN_rows exN_ids 2 [1#1] g /\ radii_match 2 [1#1] [1#1] /\ valid_sizes 2 [1#1] /\
    snd (mk_nbh (find_neighbors_tf GPU) g [1#1] None 0) = Ok n /\ length (nnbs n) = 10 /\
    forall active, 0 < active -> compute_pdf_wrapper active n [2; 1/2]%R KConstant (fun out =>
      within (1 / 100000000) (nth 3 out 0%R) (density 2 [2; 1/2]%R [1#1;1#1] exN_rows exN_ids 2)).
Proof. exact C47_agree_ex_proof. Qed.

Example C47_attached_ex :
  exists g n, usable (1#1000) 2 exN_rows exN_ids 2 [1#1] g /\ radii_match 2 [1#1] [1#1] /\ valid_sizes 2 [1#1] /\
    snd (mk_nbh (find_neighbors_tf GPU) g [1#1] None 0) = Ok n /\ length (nnbs n) = 10 /\
    forall active, 0 < active -> compute_pdf_gradient active n [2; 1/2]%R KConstant (repeat 1%R 6) (fun t => is_tensor [6; 2] t).
Proof. exact C47_attached_ex_proof. Qed.
