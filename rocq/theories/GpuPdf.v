(** Model of the CUDA density operation and of its gradient
    (custom_ops/tfg_custom_ops/compute_pdf/cc). Real numbers stand for floats. *)
From Coq Require Import List Arith ZArith QArith Reals Qreals.
From Verif Require Import Tensor PointCloud Grid Neighbors Neighborhood Pdf RTensor Cuda CudaUpdate GpuGrid GpuBasis.
Import ListNotations.
Local Open Scope nat_scope.

(** All values, or a fault if one is missing. *)
Fixpoint oall {A} (l : list (option A)) : option (list A) :=
  match l with
  | [] => Some []
  | o :: r => obind o (fun x => option_map (cons x) (oall r))
  end.

(** The literal [0.39894228f] (compute_pdf_kernels.cu.cc:114, 194). *)
Definition gauss_literal : R := (39894228 / 100000000)%R.

Section Kernels.
  (** [invr], [invbw]: the inverse radii and bandwidths; [points]: the rows of
      the points one after the other; [N] is [pNumSamples]. *)
  Variables (D : nat) (mode : kde_mode) (invr invbw points : list R) (nbs : list (nat * nat)) (ends : list Z) (N : nat).

  (** compute_pdf_kernels.cu.cc:31-56 with [pNumNeighbors = pNumSamples] as in
      lines 102, 179: mode 0 the given bandwidth, mode 1 the square root of the
      number of samples, otherwise 0. *)
  Definition cur_bandwidth (d : nat) : option R :=
    match mode with
    | KConstant => rd d invbw
    | KNumPoints => Some (sqrt (INR N))
    | KNoPdf => Some 0%R
    end.
  Definition coordinate (p d : nat) : option R := rd (p * D + d) points.
  (** Lines 107-110, 187-190: positions of the neighbors of sample [cur]. *)
  Definition sample_rows (cur : nat) : list nat := seq (range_x ends cur) (range_y ends cur - range_x ends cur).
  (** Lines 113, 193. *)
  Definition diff_entry (q cur d : nat) : option R :=
    obind (coordinate q d) (fun a => obind (coordinate cur d) (fun b =>
    obind (cur_bandwidth d) (fun w => obind (rd d invr) (fun r => Some ((a - b) * w * r)%R)))).
  (** Lines 114, 194. *)
  Definition kernel_entry (q cur d : nat) : option R :=
    obind (diff_entry q cur d) (fun x => obind (cur_bandwidth d) (fun w =>
      Some (w * exp (x * x * (- (1 / 2))) * gauss_literal)%R)).
  (** Lines 115-118, 195-198; [init] is the start value of [localPDF]. *)
  Definition local_pdf (init : R) (q cur : nat) : option R :=
    option_map (fun v => fold_left Rmult v init) (oall (map (kernel_entry q cur) (seq 0 D))).

  (** Lines 104-125. *)
  Definition sample_pdf (cur : nat) : option R :=
    option_map kahan (oall (map (fun i => obind (rd i nbs) (fun p => local_pdf 1%R (fst p) cur)) (sample_rows cur))).
  (** Lines 87-129; the memory is the output. *)
  Definition pdf_body (cur : nat) : list (action (list R)) := [with_input (sample_pdf cur) (wr cur)].

  Variable grads : list R.
  (** Lines 193-199: entry [d] of [diffVec] for the neighbor at position [i]. *)
  Definition grad_entry (cur i d : nat) : option R :=
    obind (rd cur grads) (fun g => obind (rd i nbs) (fun p =>
    obind (local_pdf g (fst p) cur) (fun l => obind (diff_entry (fst p) cur d) (fun x =>
    obind (cur_bandwidth d) (fun w => obind (rd d invr) (fun r => Some (x * w * r * l)%R)))))).
  (** Lines 201-205: entry [d] of [accumGradient] after the loop. *)
  Definition grad_sum (cur d : nat) : option R :=
    option_map kahan (oall (map (fun i => grad_entry cur i d) (sample_rows cur))).
  (** Lines 164-214. *)
  Definition grad_body (cur : nat) : list (action (list R)) :=
    flat_map (fun i => map (fun d =>
      with_input (rd i nbs) (fun p => with_input (grad_entry cur i d) (fun v => atomic (fst p * D + d) (fun w => (w + - v)%R)))) (seq 0 D))
      (sample_rows cur) ++
    map (fun d => with_input (grad_sum cur d) (fun v => atomic (cur * D + d) (fun w => (w + v)%R))) (seq 0 D).
End Kernels.

(** compute_pdf_ops.cpp:101-154 with compute_pdf_kernels.cu.cc:219-272. The
    output is not initialised. [active] is [numMP] times the active blocks per
    multiprocessor; a block has two warps. The constructor of the operation
    refuses mode 2 (lines 93-94). *)
Definition pdf_checks (mode : kde_mode) (points : ten) (ends : list Z) (invbw invr : list R) (N D : nat) : Prop :=
  tshape points = [N; D] /\ length ends = N /\ supported D /\ length invbw = D /\ length invr = D /\ mode <> KNoPdf.
Definition compute_pdf_op (active : nat) (points : ten) (nbs : list (nat * nat)) (ends : list Z) (invbw invr : list R)
  (mode : kde_mode) (P : list R -> Prop) : Prop :=
  exists N D, pdf_checks mode points ends invbw invr N D /\
    forall out, length out = N ->
      launch (num_blocks active 64 N) out
        (flat_kernel (num_blocks active 64 N) 64 N (pdf_body D mode invr invbw (tdata points) nbs ends N)) P.
(** compute_pdf_ops.cpp:188-246 with compute_pdf_kernels.cu.cc:274-335. *)
Definition compute_pdf_grads_op (active : nat) (points : ten) (nbs : list (nat * nat)) (ends : list Z) (invbw invr grads : list R)
  (mode : kde_mode) (P : ten -> Prop) : Prop :=
  exists N D, pdf_checks mode points ends invbw invr N D /\ length grads = N /\
    launch (num_blocks active 64 N) (repeat 0%R (N * D))
      (flat_kernel (num_blocks active 64 N) 64 N (grad_body D mode invr invbw (tdata points) nbs ends N grads))
      (fun out => P (Ten [N; D] out)).

(** custom_ops_wrapper.py:136-156 compute_pdf: the operation on the sorted
    points of a neighborhood. *)
Definition sorted_tensor (n : nbh) : ten :=
  let D := dim (gcloud (ngrid n)) in
  ttab [length (gspts (ngrid n)); D] (fun idx => match idx with [p; d] => Q2R (nth d (nth p (gspts (ngrid n)) []) 0%Q) | _ => 0%R end).
Definition compute_pdf_wrapper (active : nat) (n : nbh) (bandwidth : list R) (mode : kde_mode) (P : list R -> Prop) : Prop :=
  compute_pdf_op active (sorted_tensor n) (nnbs n) (rdata (nranges n)) (map Rinv bandwidth) (map (fun r => / Q2R r)%R (nradii n)) mode P.
(** custom_ops_wrapper.py:159-169 _compute_pdf_grad: the inputs of the forward
    operation with the incoming gradient. *)
Definition compute_pdf_gradient (active : nat) (n : nbh) (bandwidth : list R) (mode : kde_mode) (grads : list R) (P : ten -> Prop) : Prop :=
  compute_pdf_grads_op active (sorted_tensor n) (nnbs n) (rdata (nranges n)) (map Rinv bandwidth) (map (fun r => / Q2R r)%R (nradii n)) grads mode P.
