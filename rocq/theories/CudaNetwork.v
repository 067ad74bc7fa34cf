(** Model of the point hierarchies and of the classification networks of
    modelnet40_small.py and modelnet40.py when the custom CUDA operations are
    installed: Hierarchy.v and Classifier.v with the operations of CudaLayers.v
    and GpuSampling.v.

    As in CudaLayers.v a definition [f args P] is true if no step raises an
    exception and every execution of the operations ends, without a fault, in a
    result that satisfies [P]. All searches are without a limit of neighbors,
    therefore the clock [time] of the searches, used as a seed otherwise, is the
    same for all of them. *)
From Coq Require Import String List Arith ZArith NArith QArith Reals Bool.
From Verif Require Import GpuBasis GpuPdf Cuda GpuGrid Tensor PointCloud Grid Neighbors Neighborhood Sampling Hierarchy Pdf RTensor Kernels Layers Blocks Classifier
  GpuNeighbors GpuSampling CudaLayers.
Import ListNotations.
Local Open Scope nat_scope.

Section Code.
  (** The device, as in CudaLayers.v; [sactive] are the active blocks of the
      kernels of the sampling. *)
  Context (active : kernel -> nat) (sactive : skernel -> nat) (pactive bactive warp : nat) (time : N) (eps : Q).

  (** PointHierarchy.py:56-98, the loop over the levels. *)
  Fixpoint levels_gpu (mode : string) (D : nat) (shape : option (list nat)) (p : pc) (sizes : list cell_arg)
    (P : list pc -> list (list Q) -> list nbh -> Prop) : Prop :=
    match sizes with
    | [] => P [p] [] []
    | c :: rest =>
      step (tile_cell_sizes GPU D c) (fun cs =>
      mk_grid_gpu (active KKeys) warp eps p cs (fun g =>
      mk_nbh_gpu active warp time g cs 0 (fun n =>
      sample_gpu sactive warp n mode (fun q _ =>
      step (snd (set_batch_shape q shape)) (fun _ =>
      levels_gpu mode D shape (fst (set_batch_shape q shape)) rest (fun ps css ns =>
      P (gcloud g :: ps) (cs :: css) (n :: ns)))))))
    end.
  (** PointHierarchy.py:40-98 __init__. *)
  Definition mk_hierarchy_gpu (p : pc) (sizes : list cell_arg) (mode : string) (P : hierarchy -> Prop) : Prop :=
    let p0 := fst (get_aabb GPU eps p) in
    step (snd (get_aabb GPU eps p)) (fun _ =>
    levels_gpu mode (dim p0) (bshape p0) p0 sizes (fun ps css ns => P (Hierarchy ps css ns (dim p0) (bshape p0)))).

  (** A convolution called with features, clouds and radius only. *)
  Definition script_conv_gpu (l : conv_layer) (f : feat) (pin pout : pc) (r : Q) (return_sorted : bool) (P : feat -> Prop) : Prop :=
    match l with
    | LMC c => mcconv_gpu active pactive bactive warp time eps c f pin pout r None (2 / 10)%R return_sorted false P
    | LPT c => pointconv_gpu active pactive bactive warp time eps c f pin pout r None (2 / 10)%R return_sorted false P
    | LKP c => kpconv_gpu active bactive warp time eps c f pin pout r None None return_sorted false (fun o _ => P o)
    end.

  (** modelnet40_small.py:226-230, modelnet40.py:363-366. *)
  Definition script_hierarchy_gpu (batch_size : nat) (points : padded point) (sizes : list nat) (radii : list Q) (mode : string)
    (P : hierarchy -> Prop) : Prop :=
    step (init (PN 3 points) None (Some batch_size) (Some (ITensor [length sizes] sizes))) (fun p =>
    mk_hierarchy_gpu p (map (fun r => CVector [r]) radii) mode P).

  (** modelnet40_small.py:232-252: the loop over the levels. *)
  Fixpoint small_loop_gpu (net : small_net) (bn : nat -> mat -> mat) (h : hierarchy) (levels : list nat) (x : feat) (P : feat -> Prop) : Prop :=
    match levels with
    | [] => P x
    | i :: rest =>
      step (conv_item net (i * 2)) (fun c =>
      step (h_getitem h (Z.of_nat i)) (fun pin =>
      step (h_getitem h (Z.of_nat i + 1)) (fun pout =>
      step (item (sn_conv_radii net) i) (fun r =>
      if (Z.of_nat i <? Z.of_nat (sn_levels net) - 1)%Z then
        script_conv_gpu c x pin pout r false (fun x1 =>
        step (x2 <- on_rows (fun X => leaky_layer (bn (i * 2) X)) x1 ;;
              o <- one_item net (i * 2 + 1) ;;
              x3 <- conv1x1_call o x2 pout false false ;;
              on_rows (fun X => leaky_layer (bn (i * 2 + 1) X)) x3) (fun x4 =>
        small_loop_gpu net bn h rest x4 P))
      else script_conv_gpu c x pin pout r true (fun x1 => small_loop_gpu net bn h rest x1 P)))))
    end.
  (** modelnet40_small.py:205-261 __call__. *)
  Definition small_call_gpu (net : small_net) (bn drop : nat -> mat -> mat) (dw db : nat -> list nat -> R) (batch_size : nat)
    (points : padded point) (features : feat) (sizes : list nat) (P : feat -> Prop) : Prop :=
    script_hierarchy_gpu batch_size points sizes (sn_radii net) (sn_mode net) (fun h =>
    small_loop_gpu net bn h (seq 0 (sn_levels net)) features (fun x =>
    step (x1 <- on_rows (fun X => drop 0 (leaky_layer (bn (sn_norms net - 2) X))) x ;;
          x2 <- dense (sn_units1 net) (dw 0) (db 0) x1 ;;
          x3 <- on_rows (fun X => drop 1 (leaky_layer (bn (sn_norms net - 1) X))) x2 ;;
          dense (sn_units2 net) (dw 1) (db 1) x3) P)).

  (** modelnet40.py:205-257 conv_block.__call__. *)
  Definition block_call_gpu (b : block) (bn : nat -> mat -> mat) (x : feat) (pin pout : pc) (r : Q) (pool : option (list Q))
    (P : feat -> Prop) : Prop :=
    step (r1 <- on_rows (fun X => leaky_layer (bn 0 X)) x ;;
          r2 <- conv1x1_call (bk_down b) r1 pin false false ;;
          on_rows (fun X => leaky_layer (bn 1 X)) r2) (fun r3 =>
    script_conv_gpu (bk_conv b) r3 pin pout r false (fun r4 =>
    step (r5 <- on_rows (fun X => leaky_layer (bn 2 X)) r4 ;; conv1x1_call (bk_up b) r5 pout false false) (fun r6 =>
    let skip s1 :=
      step (s2 <- match bk_skip b with
                  | None => Ok s1
                  | Some o => t <- on_rows (fun X => leaky_layer (bn 3 X)) s1 ;; conv1x1_call o t pout false false
                  end ;;
            add_features r6 s2) P in
    if bk_strided b then max_pooling_gpu active warp time eps x pin pout pool false false skip else skip x))).

  (** modelnet40.py:368-389: the loop over the levels. *)
  Fixpoint large_loop_gpu (net : large_net) (bns bnb : nat -> nat -> mat -> mat) (h : hierarchy) (levels : list nat) (x : feat)
    (P : feat -> Prop) : Prop :=
    match levels with
    | [] => P x
    | i :: rest =>
      step (h_getitem h (Z.of_nat i + 1)) (fun pout =>
      let plain x1 :=
        step (item (ln_blocks net) i) (fun b =>
        step (item (ln_conv_radii net) i) (fun r =>
        block_call_gpu b (bnb i) x1 pout pout r None (fun x2 => large_loop_gpu net bns bnb h rest x2 P))) in
      if i =? 0 then
        step (item (ln_init net) 0) (fun c =>
        step (item (ln_conv_radii net) i) (fun r =>
        script_conv_gpu c (first_entries (length (pts pout)) x) pout pout r false plain))
      else
        step (item (ln_strided net) (i - 1)) (fun b =>
        step (h_getitem h (Z.of_nat i)) (fun pin =>
        step (item (ln_radii net) i) (fun r =>
        block_call_gpu b (bns i) x pin pout r (Some [r]) plain))))
    end.
  (** modelnet40.py:345-400 __call__. *)
  Definition large_call_gpu (net : large_net) (bns bnb : nat -> nat -> mat -> mat) (bn drop : nat -> mat -> mat)
    (dw db : nat -> list nat -> R) (batch_size : nat) (points : padded point) (features : feat) (sizes : list nat) (P : feat -> Prop) : Prop :=
    script_hierarchy_gpu batch_size points sizes (ln_radii net) (ln_mode net) (fun h =>
    large_loop_gpu net bns bnb h (seq 0 (ln_levels net)) features (fun x =>
    step (last_cloud <- h_getitem h (-1) ;;
          t <- global_average_pooling GPU x last_cloud false ;;
          x0 <- as_feat t ;;
          x1 <- on_rows (fun X => drop 0 (leaky_layer (bn 0 X))) x0 ;;
          x2 <- dense (ln_units1 net) (dw 0) (db 0) x1 ;;
          x3 <- on_rows (fun X => leaky_layer (drop 1 (bn 1 X))) x2 ;;
          dense (ln_units2 net) (dw 1) (db 1) x3) P)).
End Code.
