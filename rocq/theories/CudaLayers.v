(** Model of the neighborhoods and layers when the custom CUDA operations are
    installed (custom_ops/__init__.py:19-32): the grid, the neighbor search, the
    density and the basis projection are the CUDA operations, everything else
    is TensorFlow, as in Layers.v.

    A definition [f args P] is true if no step raises an exception and every
    execution of the operations ends, without a fault, in a result that
    satisfies [P]. The access structure that a search leaves in the grid is
    computed again by the next search (C40: the result is the same). *)
From Coq Require Import String List Arith ZArith NArith QArith Reals Bool.
From Verif Require Import Tensor PointCloud Grid Neighbors Neighborhood Pdf RTensor Layers
  Cuda GpuGrid GpuNeighbors GpuBasis GpuPdf.
Import ListNotations.
Local Open Scope nat_scope.

(** A step that can raise an exception. *)
Definition step {A} (r : result A) (P : A -> Prop) : Prop := exists v, r = Ok v /\ P v.

Section Code.
  (** [active] is [numMP] times the active blocks per multiprocessor of the
      kernels of the search, [pactive] that of the density and [bactive] that of
      the projection; [warp] the warp size and [time] the clock. *)
  Context (active : kernel -> nat) (pactive bactive warp : nat) (time : N) (eps : Q).

  (** Neighborhood.py:218-255 __init__. *)
  Definition neighborhood_gpu (g : grid) (radius : list Q) (sample : option pc) (k : nat) (P : nbh -> Prop) : Prop :=
    let radii := bcast (dim (gcloud g)) radius in
    step (match sample with Some p => Ok p | None => sorted_cloud g end) (fun c =>
    find_neighbors_gpu active warp time g c radii k (fun ends nbs =>
    step (original_ids g nbs) (fun l =>
    P (Nbh g (match sample with None => true | Some _ => false end) c radii k (Ranges [length (bids c)] ends) nbs l)))).

  (** Neighborhood.py:257-293 compute_pdf. *)
  Definition compute_pdf_gpu (x : dnbh) (bandwidth : list R) (mode : kde_mode) (normalize : bool) (P : dnbh -> Prop) : Prop :=
    let n := dn x in
    let bw := rcast (dim (nsampled n)) bandwidth in
    let finish pdf :=
      if normalize then
        step (norm <- unsorted_segment GPU rsum (repeat 1%R (length pdf)) (map snd (nnbs n)) (length (pts (nsampled n))) ;;
              f <- gather norm (map snd (nnbs n)) ;;
              Ok (map (fun q => (fst q / snd q)%R) (combine pdf f))) (fun v => P (DNbh n (Some v)))
      else P (DNbh n (Some pdf)) in
    let estimate m := compute_pdf_wrapper pactive m bw mode (fun pdf => step (gather pdf (map fst (nnbs n))) finish) in
    match mode with
    | KNoPdf => finish (repeat 1%R (length (nnbs n)))
    | _ => if nequal n then estimate n else neighborhood_gpu (ngrid n) (nradii n) None 0 estimate
    end.

  (** Neighborhood.py:295-311 get_pdf. *)
  Definition get_pdf_gpu (x : dnbh) (bandwidth : list R) (mode : kde_mode) (normalize : bool) (P : dnbh -> list R -> Prop) : Prop :=
    match dpdf x with
    | Some v => P x v
    | None => compute_pdf_gpu x bandwidth mode normalize (fun y => exists v, dpdf y = Some v /\ P y v)
    end.

  (** custom_ops_wrapper.py:172-189 basis_proj. *)
  Definition basis_proj_wrapper (basis features : ten) (n : nbh) (P : ten -> Prop) : Prop :=
    basis_proj_op bactive basis features (norig n) (rdata (nranges n)) P.

  (** MCConv.py:248-260, KPConv.py:290-301, PointConv.py:252-264. *)
  Definition layer_nbh_gpu (dims : nat) (pin pout : pc) (r : Q) (nb : option dnbh) (P : dnbh -> Prop) : Prop :=
    match nb with
    | Some x => P x
    | None => mk_grid_gpu (active KKeys) warp eps pin (repeat r dims) (fun g =>
              neighborhood_gpu g (repeat r dims) (Some pout) 0 (fun n => P (DNbh n None)))
    end.

  (** Pooling.py:103-166 _LocalPointPooling. *)
  Definition local_pooling_gpu (red : list R -> R) (features : feat) (pin pout : pc) (radius : option (list Q))
    (return_sorted return_padded : bool) (P : feat -> Prop) : Prop :=
    step (flat_features features pin) (fun f =>
    step (match radius with None => Err IndexError | Some l => Ok (bcast (dim pin) l) end) (fun radii =>
    mk_grid_gpu (active KKeys) warp eps pin radii (fun g =>
    neighborhood_gpu g radii (Some pout) 0 (fun n =>
    step (nb <- tgather f (map fst (norig n)) ;;
          o <- tsegment GPU red nb (map snd (norig n)) (length (pts pout)) ;;
          layer_output o pout return_sorted return_padded) P)))).
  Definition max_pooling_gpu := local_pooling_gpu red_max.
  Definition average_pooling_gpu := local_pooling_gpu red_mean.

  (** MCConv.py:196-278 __call__. *)
  Definition mcconv_gpu (l : mcconv) (features : feat) (pin pout : pc) (r : Q) (nb : option dnbh)
    (bandwidth : R) (return_sorted return_padded : bool) (P : feat -> Prop) : Prop :=
    fch features = mc_in l /\
    step (flat_features features pin) (fun f =>
    layer_nbh_gpu (mc_dims l) pin pout r nb (fun x =>
    get_pdf_gpu x (repeat bandwidth (mc_dims l)) KConstant false (fun _ pdf =>
    step (diffs <- scaled_diffs (mc_dims l) pin pout r (dn x) ;; mc_basis l diffs pdf) (fun basis =>
    basis_proj_wrapper basis f (dn x) (fun wf =>
    step (o <- mc_output l wf ;; layer_output o pout return_sorted return_padded) P))))).

  (** KPConv.py:198-232, 356-385. *)
  Definition kp_aggregate_gpu (l : kpconv) (dists : ten) (sigma : R) (n : nbh) (features w : ten) (P : ten -> Prop) : Prop :=
    step (kp_basis l dists sigma) (fun b => basis_proj_wrapper b features n (fun wf => step (kp_output l wf w) P)).
  (** KPConv.py:317-392 _kernel_offsets, when the layer is deformable. *)
  Definition kernel_offsets_gpu (l : kpconv) (inputs : ten) (sigma : R) (n : nbh) (features : ten)
    (num_out : nat) (P : option (ten * ten) -> Prop) : Prop :=
    match kp_deform l with
    | None => P None
    | Some wo =>
      step (kp_dists l inputs None) (fun d => kp_aggregate_gpu l d sigma n features wo (fun o =>
      step (kp_offsets l o n num_out) (fun v => P (Some v))))
    end.
  (** KPConv.py:234-315 __call__ with 165-232 _kp_conv. *)
  Definition kpconv_gpu (l : kpconv) (features : feat) (pin pout : pc) (r : Q) (nb : option dnbh)
    (influence : option R) (return_sorted return_padded : bool) (P : feat -> kpstate -> Prop) : Prop :=
    step (flat_features features pin) (fun f =>
    let num_out := length (pts pout) in
    let sigma := match influence with None => 1%R | Some s => (s / Q2R r)%R end in
    layer_nbh_gpu (kp_dims l) pin pout r nb (fun x =>
    step (scaled_diffs (kp_dims l) pin pout r (dn x)) (fun inputs =>
    kernel_offsets_gpu l inputs sigma (dn x) f num_out (fun offs =>
    step (kp_dists l inputs (match offs with Some o => Some (snd o) | None => None end)) (fun d =>
    kp_aggregate_gpu l d sigma (dn x) f (kp_w l) (fun o =>
    step (layer_output o pout return_sorted return_padded) (fun out =>
    P out (KPState sigma num_out d (norig (dn x)) (match offs with Some o => Some (fst o) | None => None end))))))))).

  (** PointConv.py:204-281 __call__. *)
  Definition pointconv_gpu (l : pointconv) (features : feat) (pin pout : pc) (r : Q) (nb : option dnbh)
    (bandwidth : R) (return_sorted return_padded : bool) (P : feat -> Prop) : Prop :=
    step (flat_features features pin) (fun f =>
    layer_nbh_gpu (pt_dims l) pin pout r nb (fun x =>
    get_pdf_gpu x (repeat bandwidth (pt_dims l)) KConstant false (fun _ pdf =>
    step (diffs <- point_diffs pin pout (dn x) ;; pt_basis GPU l diffs (dn x) pdf) (fun basis =>
    basis_proj_wrapper basis f (dn x) (fun wf =>
    step (o <- pt_output l wf ;; layer_output o pout return_sorted return_padded) P))))).
End Code.
