(** Model of the residual networks of pylib/pc/layers/network_blocks.py when
    the custom CUDA operations are installed. As in CudaLayers.v a definition
    [f args P] is true if no step raises an exception and every execution of the
    operations ends, without a fault, in a result that satisfies [P].
    PointResNetBottleNeck has no model here: its constructor always fails (C52). *)
From Coq Require Import String List Arith ZArith NArith QArith Reals Bool.
From Verif Require Import Cuda GpuGrid GpuNeighbors GpuBasis GpuPdf Tensor PointCloud Grid Neighbors Neighborhood Pdf RTensor Layers
  CudaLayers Blocks.
Import ListNotations.
Local Open Scope nat_scope.

Section Code.
  Context (active : kernel -> nat) (pactive bactive warp : nat) (time : N) (eps : Q).

  (** A convolution inside a block, as [block_conv] of Blocks.v
      (network_blocks.py:137-152, 278-283, 433-457). The layer asks the
      neighborhood for its density and the neighborhood keeps it; here this
      happens before the layer, which then finds the density. *)
  Definition block_conv_gpu (l : conv_layer) (t : ten) (pin pout : pc) (r : Q) (x : dnbh) (bandwidth : R)
    (P : dnbh -> ten -> Prop) : Prop :=
    match l with
    | LKP _ => step (Err TypeError) (P x)
    | LMC c => step (as_feat t) (fun f =>
        get_pdf_gpu active pactive warp time x (repeat bandwidth (mc_dims c)) KConstant false (fun y _ =>
        mcconv_gpu active pactive bactive warp time eps c f pin pout r (Some y) bandwidth false false (fun o =>
        step (as_ten o) (P y))))
    | LPT c => step (as_feat t) (fun f =>
        get_pdf_gpu active pactive warp time x (repeat bandwidth (pt_dims c)) KConstant false (fun y _ =>
        pointconv_gpu active pactive bactive warp time eps c f pin pout r (Some y) bandwidth false false (fun o =>
        step (as_ten o) (P y))))
    end.

  (** The neighborhood of a cloud with itself: network_blocks.py:126-132. *)
  Definition own_nbh_gpu (dims : nat) (p : pc) (r : Q) (P : dnbh -> Prop) : Prop :=
    mk_grid_gpu (active KKeys) warp eps p (repeat r dims) (fun g =>
    neighborhood_gpu active warp time g (repeat r dims) None 0 (fun n => P (DNbh n None))).

  (** Neighborhood.py:318-329 transpose. *)
  Definition transpose_gpu (n : nbh) (P : nbh -> Prop) : Prop :=
    if nequal n then P n else
    mk_grid_gpu (active KKeys) warp eps (nsampled n) (nradii n) (fun g =>
    neighborhood_gpu active warp time g (nradii n) (Some (gcloud (ngrid n))) 0 P).

  (** network_blocks.py:133-156: the loop of PointResNet. *)
  Fixpoint resnet_loop_gpu (bn : nat -> mat -> mat) (act : mat -> mat) (p : pc) (r : Q) (bandwidth : R) (i : nat)
    (blocks : list (conv_layer * conv_layer * option conv1x1)) (x : dnbh) (t : ten) (P : ten -> Prop) : Prop :=
    match blocks with
    | [] => P t
    | (a, b, s) :: rest =>
      step (pre bn act (2 * i) t) (fun t1 =>
      block_conv_gpu a t1 p p r x bandwidth (fun x1 t2 =>
      step (pre bn act (2 * i + 1) t2) (fun t3 =>
      block_conv_gpu b t3 p p r x1 bandwidth (fun x2 t4 =>
      step (t5 <- shortcut_layer s t p ;; tbin Rplus t4 t5) (fun t6 =>
      resnet_loop_gpu bn act p r bandwidth (S i) rest x2 t6 P)))))
    end.
  (** network_blocks.py:95-160 PointResNet.__call__. *)
  Definition resnet_gpu (net : resnet) (bn : nat -> mat -> mat) (act : mat -> mat) (features : feat) (p : pc) (r : Q)
    (nb : option dnbh) (bandwidth : R) (return_sorted return_padded : bool) (P : feat -> Prop) : Prop :=
    step (flat_features features p) (fun f =>
    let rest x := resnet_loop_gpu bn act p r bandwidth 0 (rn_blocks net) x f (fun o =>
      step (layer_output o p return_sorted return_padded) P) in
    match nb with Some x => rest x | None => own_nbh_gpu (rn_dims net) p r rest end).

  (** network_blocks.py:409-428: the three neighborhoods of
      PointResNetSpatialBottleNeck, if not given. *)
  Definition spatial_nbhs_gpu (dims : nat) (p q : pc) (r0 r1 r2 : Q) (P : dnbh * dnbh * dnbh -> Prop) : Prop :=
    mk_grid_gpu (active KKeys) warp eps p (repeat r0 dims) (fun g =>
    neighborhood_gpu active warp time g (repeat r0 dims) (Some q) 0 (fun down =>
    own_nbh_gpu dims q r1 (fun mid =>
    let finish up := P (DNbh down None, mid, DNbh up None) in
    if Qeq_bool r0 r2 then transpose_gpu down finish
    else mk_grid_gpu (active KKeys) warp eps q (repeat r2 dims) (fun g2 =>
         neighborhood_gpu active warp time g2 (repeat r2 dims) (Some p) 0 finish)))).
  (** network_blocks.py:429-461. *)
  Fixpoint spatial_loop_gpu (bn : nat -> mat -> mat) (act : mat -> mat) (p q : pc) (r0 r1 r2 : Q) (bandwidth : R) (i : nat)
    (blocks : list (conv_layer * conv_layer * conv_layer * option conv1x1)) (xs : dnbh * dnbh * dnbh) (t : ten)
    (P : ten -> Prop) : Prop :=
    match blocks with
    | [] => P t
    | (u, m, d, s) :: rest =>
      let '(x0, x1, x2) := xs in
      step (pre bn act (3 * i) t) (fun t1 =>
      block_conv_gpu d t1 p q r0 x0 bandwidth (fun y0 t2 =>
      step (pre bn act (3 * i + 1) t2) (fun t3 =>
      block_conv_gpu m t3 q q r1 x1 bandwidth (fun y1 t4 =>
      step (pre bn act (3 * i + 2) t4) (fun t5 =>
      block_conv_gpu u t5 q p r2 x2 bandwidth (fun y2 t6 =>
      step (t7 <- shortcut_layer s t p ;; tbin Rplus t6 t7) (fun t8 =>
      spatial_loop_gpu bn act p q r0 r1 r2 bandwidth (S i) rest (y0, y1, y2) t8 P)))))))
    end.
  (** network_blocks.py:367-465 PointResNetSpatialBottleNeck.__call__. *)
  Definition spatial_gpu (net : spatial) (bn : nat -> mat -> mat) (act : mat -> mat) (features : feat) (p q : pc)
    (r0 r1 r2 : Q) (nbs : option (dnbh * dnbh * dnbh)) (bandwidth : R) (return_sorted return_padded : bool) (P : feat -> Prop) : Prop :=
    step (flat_features features p) (fun f =>
    let rest xs := spatial_loop_gpu bn act p q r0 r1 r2 bandwidth 0 (sp_blocks net) xs f (fun o =>
      step (layer_output o p return_sorted return_padded) P) in
    match nbs with Some xs => rest xs | None => spatial_nbhs_gpu (sp_dims net) p q r0 r1 r2 rest end).
End Code.
