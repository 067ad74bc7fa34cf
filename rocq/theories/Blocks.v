(** Model of the residual networks of pylib/pc/layers/network_blocks.py.

    Between the layers the features are a matrix with one row per point. Batch
    normalisation and the activation function are arbitrary functions of such a
    matrix ([bn k] is the [k]-th normalisation layer with its trained state, in
    training or inference mode). *)
From Coq Require Import String List Arith ZArith QArith Reals Bool.
From Verif Require Import Tensor PointCloud Grid Neighbors Neighborhood Sampling Pdf RTensor Layers.
Import ListNotations.
Local Open Scope nat_scope.

Notation mat := (list (list R)).

(** network_blocks.py:28-35 layer_types; the name is lowered by the callers. *)
Inductive conv_type := TMC | TKP | TPT.
Definition layer_types (name : string) : result conv_type :=
  let s := lower name in
  if existsb (String.eqb s) ["mcconv"; "mc"; "mc_conv"]%string then Ok TMC
  else if existsb (String.eqb s) ["kpconv"; "kp"; "kp_conv"]%string then Ok TKP
  else if existsb (String.eqb s) ["pointconv"; "point_conv"]%string then Ok TPT
  else Err KeyError.

Inductive conv_layer := LMC (l : mcconv) | LKP (l : kpconv) | LPT (l : pointconv).

(** The keyword arguments a network hands to the constructors of its
    convolutions, together with the variables of one of them; a class called
    with the keywords of another raises TypeError. *)
Inductive layer_args :=
| AMC (mlps : nat) (sizes : list nat) (act : string) (w b : nat -> list nat -> R) (fw : list nat -> R)
| AKP (num : nat) (deformable : bool) (interpolation : string) (custom : option ten) (spherical : nat -> result ten)
      (w wo : list nat -> R)
| APT (hidden : nat) (act : string) (axis bias w w1 b1 w2 b2 : list nat -> R).
Definition new_layer (cin cout dims : nat) (t : conv_type) (args : layer_args) : result conv_layer :=
  match t, args with
  | TMC, AMC mlps sizes act w b fw => l <- mk_mcconv cin cout dims mlps sizes act w b fw ;; Ok (LMC l)
  | TKP, AKP num deformable interpolation custom spherical w wo =>
    l <- mk_kpconv cin cout num dims deformable interpolation custom spherical w wo ;; Ok (LKP l)
  | TPT, APT hidden act axis bias w w1 b1 w2 b2 => Ok (LPT (mk_pointconv cin cout dims hidden act axis bias w w1 b1 w2 b2))
  | _, _ => Err TypeError
  end.

(** A matrix as argument of a layer and back. *)
Definition as_feat (t : ten) : result feat :=
  match tshape t with [_; c] => Ok (Feat c (inr (to_rows t))) | _ => Err OutOfScope end.
Definition as_ten (f : feat) : result ten :=
  match frows f with inr rows => Ok (of_rows (fch f) rows) | inl _ => Err OutOfScope end.

(** layers/utils.py:239-245 _identity, or a Conv1x1 (network_blocks.py:87-91). *)
Definition shortcut_layer (l : option conv1x1) (t : ten) (p : pc) : result ten :=
  match l with
  | None => Ok t
  | Some c => f <- as_feat t ;; o <- conv1x1_call c f p false false ;; as_ten o
  end.

(** A convolution of block [i] and the Conv1x1 of its shortcut, in the order in
    which the constructors make them. *)
Fixpoint build {A} (f : nat -> result A) (ks : list nat) : result (list A) :=
  match ks with
  | [] => Ok []
  | k :: r => a <- f k ;; l <- build f r ;; Ok (a :: l)
  end.
Definition mk_shortcut (projection : bool) (features : nat) (pw pb : nat -> list nat -> R) (i : nat) : result (option conv1x1) :=
  if projection then c <- mk_conv1x1 features features (pw i) (pb i) ;; Ok (Some c) else Ok None.

Section Code.
  Context (dev : device) (eps : Q) (search : search_fn) (kde : kde_fn).

  (** A convolution inside a block: [conv(features=, point_cloud_in=,
      point_cloud_out=, radius=, neighborhood=, **kwargs)], where the only
      keyword is [bandwidth]. KPConv has no argument [radius] (its name there is
      [conv_radius]). The neighborhood is returned with its density. *)
  Definition block_conv (l : conv_layer) (t : ten) (pin pout : pc) (r : Q) (x : dnbh) (bandwidth : R) : dnbh * result ten :=
    match l with
    | LKP _ => (x, Err TypeError)
    | LMC c =>
      (fst (get_pdf dev search kde x (repeat bandwidth (mc_dims c)) KConstant false),
       f <- as_feat t ;; o <- mcconv_call dev eps search kde c f pin pout r (Some x) bandwidth false false ;; as_ten o)
    | LPT c =>
      (fst (get_pdf dev search kde x (repeat bandwidth (pt_dims c)) KConstant false),
       f <- as_feat t ;; o <- pointconv_call dev eps search kde c f pin pout r (Some x) bandwidth false false ;; as_ten o)
    end.

  (** Normalisation and activation before a layer. *)
  Definition pre (bn : nat -> mat -> mat) (act : mat -> mat) (k : nat) (t : ten) : result ten :=
    match tshape t with [_; c] => Ok (of_rows c (act (bn k (to_rows t)))) | _ => Err OutOfScope end.

  (** The neighborhood of a cloud with itself: network_blocks.py:126-132. *)
  Definition own_nbh (dims : nat) (p : pc) (r : Q) : result dnbh :=
    g <- mk_grid dev eps p (repeat r dims) ;;
    n <- snd (mk_nbh search g (repeat r dims) None 0) ;;
    Ok (DNbh n None).

  (** ** PointResNet *)
  (** network_blocks.py:58-92 __init__: per block two convolutions and the
      shortcut. *)
  Record resnet := ResNet { rn_dims : nat; rn_blocks : list (conv_layer * conv_layer * option conv1x1) }.
  Definition mk_resnet (features blocks dims : nat) (name : string) (projection : bool)
    (args : nat -> layer_args) (pw pb : nat -> list nat -> R) : result resnet :=
    t <- layer_types name ;;
    bs <- build (fun i => a <- new_layer features features dims t (args (2 * i)) ;;
                          b <- new_layer features features dims t (args (2 * i + 1)) ;;
                          s <- mk_shortcut projection features pw pb i ;; Ok (a, b, s)) (seq 0 blocks) ;;
    Ok (ResNet dims bs).
  (** network_blocks.py:133-156: the loop, with block number [i]. *)
  Fixpoint resnet_loop (bn : nat -> mat -> mat) (act : mat -> mat) (p : pc) (r : Q) (bandwidth : R) (i : nat)
    (blocks : list (conv_layer * conv_layer * option conv1x1)) (x : dnbh) (t : ten) : result ten :=
    match blocks with
    | [] => Ok t
    | (a, b, s) :: rest =>
      t1 <- pre bn act (2 * i) t ;;
      let '(x1, r1) := block_conv a t1 p p r x bandwidth in
      t2 <- r1 ;;
      t3 <- pre bn act (2 * i + 1) t2 ;;
      let '(x2, r2) := block_conv b t3 p p r x1 bandwidth in
      t4 <- r2 ;;
      t5 <- shortcut_layer s t p ;;
      t6 <- tbin Rplus t4 t5 ;;
      resnet_loop bn act p r bandwidth (S i) rest x2 t6
    end.
  (** network_blocks.py:95-160 __call__. *)
  Definition resnet_call (net : resnet) (bn : nat -> mat -> mat) (act : mat -> mat) (features : feat) (p : pc) (r : Q)
    (nb : option dnbh) (bandwidth : R) (return_sorted return_padded : bool) : result feat :=
    f <- flat_features features p ;;
    x <- match nb with Some x => Ok x | None => own_nbh (rn_dims net) p r end ;;
    o <- resnet_loop bn act p r bandwidth 0 (rn_blocks net) x f ;;
    layer_output o p return_sorted return_padded.

  (** ** PointResNetBottleNeck *)
  (** network_blocks.py:188-231 __init__: per block the convolution, the shortcut
      and the down- and upsampling Conv1x1. [conv1x1_use_bias] is the call
      [Conv1x1(cin, cout, use_bias=True)]: Conv1x1.py:37-40 has no such
      argument. *)
  Record bottle_neck := BottleNeck { bo_dims : nat; bo_blocks : list (conv_layer * option conv1x1 * conv1x1 * conv1x1) }.
  Definition conv1x1_use_bias (cin cout : nat) (w b : list nat -> R) : result conv1x1 := Err TypeError.
  Definition mk_bottle_neck (features inner blocks dims : nat) (name : string) (projection : bool)
    (args : nat -> layer_args) (pw pb dw db uw ub : nat -> list nat -> R) : result bottle_neck :=
    t <- layer_types name ;;
    bs <- build (fun i => a <- new_layer inner inner dims t (args i) ;; s <- mk_shortcut projection features pw pb i ;;
                          d <- conv1x1_use_bias features inner (dw i) (db i) ;;
                          u <- conv1x1_use_bias inner features (uw i) (ub i) ;; Ok (a, s, d, u)) (seq 0 blocks) ;;
    Ok (BottleNeck dims bs).
  (** network_blocks.py:270-293: the loop, with block number [i]. *)
  Fixpoint bottle_neck_loop (bn : nat -> mat -> mat) (act : mat -> mat) (p : pc) (r : Q) (bandwidth : R) (i : nat)
    (blocks : list (conv_layer * option conv1x1 * conv1x1 * conv1x1)) (x : dnbh) (t : ten) : result ten :=
    match blocks with
    | [] => Ok t
    | (a, s, d, u) :: rest =>
      t1 <- pre bn act (3 * i) t ;;
      t2 <- shortcut_layer (Some d) t1 p ;;
      t3 <- pre bn act (3 * i + 1) t2 ;;
      let '(x1, r1) := block_conv a t3 p p r x bandwidth in
      t4 <- r1 ;;
      t5 <- pre bn act (3 * i + 2) t4 ;;
      t6 <- shortcut_layer (Some u) t5 p ;;
      t7 <- shortcut_layer s t p ;;
      t8 <- tbin Rplus t6 t7 ;;
      bottle_neck_loop bn act p r bandwidth (S i) rest x1 t8
    end.
  (** network_blocks.py:233-297 __call__. *)
  Definition bottle_neck_call (net : bottle_neck) (bn : nat -> mat -> mat) (act : mat -> mat) (features : feat) (p : pc) (r : Q)
    (nb : option dnbh) (bandwidth : R) (return_sorted return_padded : bool) : result feat :=
    f <- flat_features features p ;;
    x <- match nb with Some x => Ok x | None => own_nbh (bo_dims net) p r end ;;
    o <- bottle_neck_loop bn act p r bandwidth 0 (bo_blocks net) x f ;;
    layer_output o p return_sorted return_padded.

  (** ** PointResNetSpatialBottleNeck *)
  (** network_blocks.py:323-365 __init__: per block the upsampling, the middle
      and the downsampling convolution and the shortcut. *)
  Record spatial := Spatial { sp_dims : nat; sp_blocks : list (conv_layer * conv_layer * conv_layer * option conv1x1) }.
  Definition mk_spatial (features blocks dims : nat) (name : string) (projection : bool)
    (args : nat -> layer_args) (pw pb : nat -> list nat -> R) : result spatial :=
    t <- layer_types name ;;
    bs <- build (fun i => u <- new_layer features features dims t (args (3 * i)) ;;
                          m <- new_layer features features dims t (args (3 * i + 1)) ;;
                          d <- new_layer features features dims t (args (3 * i + 2)) ;;
                          s <- mk_shortcut projection features pw pb i ;; Ok (u, m, d, s)) (seq 0 blocks) ;;
    Ok (Spatial dims bs).
  (** network_blocks.py:409-428: the three neighborhoods, if not given. *)
  Definition spatial_nbhs (dims : nat) (p q : pc) (r0 r1 r2 : Q) : result (dnbh * dnbh * dnbh) :=
    g <- mk_grid dev eps p (repeat r0 dims) ;;
    down <- snd (mk_nbh search g (repeat r0 dims) (Some q) 0) ;;
    mid <- own_nbh dims q r1 ;;
    up <- (if Qeq_bool r0 r2 then transpose dev eps search down
           else g2 <- mk_grid dev eps q (repeat r2 dims) ;; snd (mk_nbh search g2 (repeat r2 dims) (Some p) 0)) ;;
    Ok (DNbh down None, mid, DNbh up None).
  (** network_blocks.py:429-461. *)
  Fixpoint spatial_loop (bn : nat -> mat -> mat) (act : mat -> mat) (p q : pc) (r0 r1 r2 : Q) (bandwidth : R) (i : nat)
    (blocks : list (conv_layer * conv_layer * conv_layer * option conv1x1)) (xs : dnbh * dnbh * dnbh) (t : ten) : result ten :=
    match blocks with
    | [] => Ok t
    | (u, m, d, s) :: rest =>
      let '(x0, x1, x2) := xs in
      t1 <- pre bn act (3 * i) t ;;
      let '(y0, a0) := block_conv d t1 p q r0 x0 bandwidth in
      t2 <- a0 ;;
      t3 <- pre bn act (3 * i + 1) t2 ;;
      let '(y1, a1) := block_conv m t3 q q r1 x1 bandwidth in
      t4 <- a1 ;;
      t5 <- pre bn act (3 * i + 2) t4 ;;
      let '(y2, a2) := block_conv u t5 q p r2 x2 bandwidth in
      t6 <- a2 ;;
      t7 <- shortcut_layer s t p ;;
      t8 <- tbin Rplus t6 t7 ;;
      spatial_loop bn act p q r0 r1 r2 bandwidth (S i) rest (y0, y1, y2) t8
    end.
  (** network_blocks.py:367-465 __call__; the features belong to [p], [q] is the
      downsampled cloud. *)
  Definition spatial_call (net : spatial) (bn : nat -> mat -> mat) (act : mat -> mat) (features : feat) (p q : pc)
    (r0 r1 r2 : Q) (nbs : option (dnbh * dnbh * dnbh)) (bandwidth : R) (return_sorted return_padded : bool) : result feat :=
    f <- flat_features features p ;;
    xs <- match nbs with Some x => Ok x | None => spatial_nbhs (sp_dims net) p q r0 r1 r2 end ;;
    o <- spatial_loop bn act p q r0 r1 r2 bandwidth 0 (sp_blocks net) xs f ;;
    layer_output o p return_sorted return_padded.
End Code.
