(** Model of the layers: basis projection (custom_ops_tf.py:423-446) and
    pylib/pc/layers/{Pooling,Conv1x1,MCConv,KPConv,PointConv}.py.

    Real numbers stand for floats (rounding and overflow are not modelled; the
    identity elements of max and min are the float32 limits). Trainable
    variables are arbitrary tensors of the shapes given by the constructors,
    which covers every initialisation and every training state. The caches the
    calls fill in the passed clouds, grids and neighborhoods are not returned
    (History.v treats those of clouds). *)
From Coq Require Import String List Arith ZArith QArith Reals Qreals Bool.
From Verif Require Import Tensor PointCloud Grid Neighbors Neighborhood Sampling Pdf RTensor.
Import ListNotations.
Local Open Scope nat_scope.

(** A feature tensor: number of channels and rows, padded or flat. *)
Record feat := Feat { fch : nat; frows : padded (list R) + list (list R) }.

(** utils.py:75-94 _flatten_features. *)
Definition flat_features (f : feat) (p : pc) : result ten :=
  rows <- snd (flatten_features (frows f) p) ;; Ok (of_rows (fch f) rows).

(** layers/utils.py:22-49 _format_output of a matrix. *)
Definition layer_output (t : ten) (p : pc) (return_sorted return_padded : bool) : result feat :=
  match tshape t with
  | [_; c] => o <- snd (format_output (repeat 0%R c) (to_rows t) p return_sorted return_padded) ;; Ok (Feat c o)
  | _ => Err OutOfScope
  end.

(** Lowest and highest float32. *)
Definition rlowest : R := (- Q2R flt_max)%R.
Definition rhighest : R := Q2R flt_max.

(** The reductions of [tf.math.unsorted_segment_sum / max / min / mean];
    the mean of no values is 0 (TensorFlow divides by max(count, 1)). *)
Definition red_max (l : list R) : R := fold_right Rmax rlowest l.
Definition red_min (l : list R) : R := fold_right Rmin rhighest l.
Definition red_mean (l : list R) : R := (rsum l / INR (Nat.max (length l) 1))%R.

(** [tf.nn.relu], [tf.nn.leaky_relu] (slope 0.2), [tf.nn.elu]. *)
Definition relu (x : R) : R := Rmax 0 x.
Definition leaky_relu (x : R) : R := if Rlt_dec 0 x then x else (2 / 10 * x)%R.
Definition elu (x : R) : R := if Rlt_dec 0 x then x else (exp x - 1)%R.

(** MCConv.py:27-31, PointConv.py:27-31 non_linearity_types; the names are
    lowered by the callers; a missing key is a KeyError. *)
Definition non_linearity (name : string) : result (R -> R) :=
  let s := lower name in
  if String.eqb s "relu" then Ok relu
  else if existsb (String.eqb s) ["lrelu"; "leakyrelu"; "leaky_relu"]%string then Ok leaky_relu
  else if String.eqb s "elu" then Ok elu
  else Err KeyError.

(** The points of a cloud as a matrix. *)
Definition coords (p : pc) : ten := of_rows (dim p) (map (map Q2R) (pts p)).

Section Code.
  Context (dev : device) (eps : Q) (search : search_fn) (kde : kde_fn).

  (** custom_ops_tf.py:423-446 basis_proj_tf. *)
  Definition basis_proj (basis features : ten) (n : nbh) : result ten :=
    per_nb <- tgather features (map fst (norig n)) ;;
    w <- tbin Rmult (texpand per_nb 2) (texpand basis 1) ;;
    tsegment dev rsum w (map snd (nnbs n)) (length (pts (nsampled n))).

  (** Pooling.py:25-61 GlobalMaxPooling and 64-100 GlobalAveragePooling: the
      segments are the batch elements; with [return_padded] the result gets the
      batch shape (concatenating None fails). *)
  Definition global_pooling (red : list R -> R) (features : feat) (p : pc) (return_padded : bool) : result ten :=
    f <- flat_features features p ;;
    o <- tsegment dev red f (bids p) (bsize p) ;;
    if return_padded then
      match bshape p with
      | None => Err ValueError
      | Some sh => treshape_infer o sh []
      end
    else Ok o.
  Definition global_max_pooling := global_pooling red_max.
  Definition global_average_pooling := global_pooling red_mean.

  (** Pooling.py:103-166 _LocalPointPooling. [None] is a 0-dimensional radius:
      its shape has no entry 0. *)
  Definition local_pooling (red : list R -> R) (features : feat) (pin pout : pc) (radius : option (list Q))
    (return_sorted return_padded : bool) : result feat :=
    f <- flat_features features pin ;;
    match radius with
    | None => Err IndexError
    | Some radii0 =>
      let radii := bcast (dim pin) radii0 in
      g <- mk_grid dev eps pin radii ;;
      n <- snd (mk_nbh search g radii (Some pout) 0) ;;
      nb <- tgather f (map fst (norig n)) ;;
      o <- tsegment dev red nb (map snd (norig n)) (length (pts pout)) ;;
      layer_output o pout return_sorted return_padded
    end.
  (** Pooling.py:169-206 MaxPooling, 209-246 AveragePooling. *)
  Definition max_pooling := local_pooling red_max.
  Definition average_pooling := local_pooling red_mean.

  (** Conv1x1.py:37-63 __init__ (a bias of zeros is the initial state; the
      variable can be trained). The standard deviation divides by the number of
      input features. *)
  Record conv1x1 := Conv1x1 { c1_w : ten; c1_b : ten }.
  Definition mk_conv1x1 (cin cout : nat) (w b : list nat -> R) : result conv1x1 :=
    if cin =? 0 then Err OutOfScope (* ZeroDivisionError *) else
    Ok (Conv1x1 (ttab [cin; cout] w) (ttab [1; cout] b)).
  (** Conv1x1.py:65-101 __call__. *)
  Definition conv1x1_call (l : conv1x1) (features : feat) (p : pc) (return_sorted return_padded : bool) : result feat :=
    f <- flat_features features p ;;
    m <- tmatmul f (c1_w l) ;;
    o <- tbin Rplus m (c1_b l) ;;
    layer_output o p return_sorted return_padded.

  (** The neighborhood of a convolution call: the one passed, or that of a grid
      with cells of the radius (MCConv.py:248-260, KPConv.py:290-301,
      PointConv.py:252-264). *)
  Definition layer_nbh (dims : nat) (pin pout : pc) (r : Q) (nb : option dnbh) : result dnbh :=
    match nb with
    | Some x => Ok x
    | None =>
      g <- mk_grid dev eps pin (repeat r dims) ;;
      n <- snd (mk_nbh search g (repeat r dims) (Some pout) 0) ;;
      Ok (DNbh n None)
    end.

  (** Differences between the neighbors and the centers, by original indices
      (MCConv.py:264-268, KPConv.py:304-308, PointConv.py:268-272). *)
  Definition point_diffs (pin pout : pc) (n : nbh) : result ten :=
    a <- tgather (coords pin) (map fst (norig n)) ;;
    b <- tgather (coords pout) (map snd (norig n)) ;;
    tbin Rminus a b.
  (** ... divided by the radius (MCConv.py:268-269, KPConv.py:308-309). *)
  Definition scaled_diffs (dims : nat) (pin pout : pc) (r : Q) (n : nbh) : result ten :=
    d <- point_diffs pin pout n ;;
    tbin Rdiv d (ttab [1; dims] (fun _ => Q2R r)).

  (** MCConv.py:61-135 __init__: weights and biases of the hidden layers, final
      weights. Sizes of 0 fail in the standard deviations, an empty list of
      layers when the last size is used. *)
  Record mcconv := MCConv {
    mc_in : nat; mc_out : nat; mc_dims : nat; mc_mlps : nat; mc_sizes : list nat; mc_act : string;
    mc_layers : list (ten * ten);
    mc_final : ten }.
  Fixpoint mc_variables (mlps k prev : nat) (sizes : list nat) (w b : nat -> list nat -> R) : list (ten * ten) :=
    match sizes with
    | [] => []
    | s :: r => (ttab [mlps; prev; s] (w k), ttab [mlps; 1; s] (b k)) :: mc_variables mlps (S k) s r w b
    end.
  Definition mk_mcconv (cin cout dims mlps : nat) (sizes : list nat) (act : string)
    (w b : nat -> list nat -> R) (fw : list nat -> R) : result mcconv :=
    if mlps =? 0 then Err OutOfScope else
    if negb (cout mod mlps =? 0) then Err ValueError else
    if (match sizes with [] => true | _ => false end) || existsb (Nat.eqb 0) (cin :: dims :: sizes)
    then Err OutOfScope else
    Ok (MCConv cin cout dims mlps sizes act (mc_variables mlps 0 dims sizes w b)
          (ttab [mlps; last sizes 0 * cin; cout / mlps] fw)).

  (** MCConv.py:165-168: the hidden layers. *)
  Fixpoint mc_hidden (act : string) (layers : list (ten * ten)) (x : ten) : result ten :=
    match layers with
    | [] => Ok x
    | (w, b) :: r =>
      m <- tmatmul x w ;;
      y <- tbin Rplus m b ;;
      a <- non_linearity act ;;
      mc_hidden act r (tmap a y)
    end.

  (** MCConv.py:137-194 _monte_carlo_conv: the basis (162-171), and the output
      from the projected features (179-194). *)
  Definition mc_basis (l : mcconv) (inputs : ten) (pdf : list R) : result ten :=
    let H := last (mc_sizes l) 0 in
    x0 <- treshape_infer inputs [1] [mc_dims l] ;;
    x1 <- ttile0 x0 (mc_mlps l) ;;
    x2 <- mc_hidden (mc_act l) (mc_layers l) x1 ;;
    x3 <- ttranspose x2 [1; 0; 2] ;;
    x4 <- treshape_infer x3 [] [H * mc_mlps l] ;;
    tbin Rdiv x4 (of_rows 1 (map (fun v => [v]) pdf)).
  Definition mc_output (l : mcconv) (wf : ten) : result ten :=
    let H := last (mc_sizes l) 0 in
    y1 <- treshape_infer wf [] [mc_in l; mc_mlps l; H] ;;
    y2 <- ttranspose y1 [2; 0; 1; 3] ;;
    y3 <- treshape_infer y2 [mc_mlps l] [mc_in l * H] ;;
    z <- tmatmul y3 (mc_final l) ;;
    z1 <- ttranspose z [1; 0; 2] ;;
    treshape_infer z1 [] [mc_out l].
  Definition monte_carlo_conv (l : mcconv) (inputs : ten) (n : nbh) (pdf : list R) (features : ten) : result ten :=
    basis <- mc_basis l inputs pdf ;;
    wf <- basis_proj basis features n ;;
    mc_output l wf.

  (** MCConv.py:196-278 __call__. *)
  Definition mcconv_call (l : mcconv) (features : feat) (pin pout : pc) (r : Q) (nb : option dnbh)
    (bandwidth : R) (return_sorted return_padded : bool) : result feat :=
    if negb (fch features =? mc_in l) then Err InvalidArgument else
    f <- flat_features features pin ;;
    x <- layer_nbh (mc_dims l) pin pout r nb ;;
    pdf <- snd (get_pdf dev search kde x (repeat bandwidth (mc_dims l)) KConstant false) ;;
    diffs <- scaled_diffs (mc_dims l) pin pout r (dn x) ;;
    o <- monte_carlo_conv l diffs (dn x) pdf f ;;
    layer_output o pout return_sorted return_padded.

  (** KPConv.py:29-60 weighting functions; a missing key is a KeyError. *)
  Definition linear_weighting (values sigma : R) : R := relu (1 - values / sigma).
  Definition gaussian_weighting (values sigma : R) : R := exp (- (values / (sigma / 3)) ^ 2).
  Definition kernel_interpolation (name : string) : result (R -> R -> R) :=
    if String.eqb name "linear" then Ok linear_weighting
    else if String.eqb name "gaussian" then Ok gaussian_weighting
    else Err KeyError.

  (** KPConv.py:94-163 __init__. [spherical] is the result of
      spherical_kernel_points (Kernels.v); the kernel points are moved to radius
      0.75; a deformable layer has a second set of weights. *)
  Record kpconv := KPConv {
    kp_in : nat; kp_out : nat; kp_num : nat; kp_dims : nat;
    kp_weighting : R -> R -> R;
    kp_points : ten;
    kp_deform : option ten;
    kp_w : ten }.
  Definition mk_kpconv (cin cout num dims : nat) (deformable : bool) (interpolation : string)
    (custom : option ten) (spherical : nat -> result ten) (w wo : list nat -> R) : result kpconv :=
    wt <- kernel_interpolation interpolation ;;
    if negb (dims =? 3) && (match custom with None => true | _ => false end) then Err ValueError else
    pts0 <- match custom with Some t => Ok t | None => spherical num end ;;
    Ok (KPConv cin cout num dims wt (tmap (fun x => (x * (3 / 4))%R) pts0)
          (if deformable then Some (ttab [num * cin; num * dims] wo) else None)
          (ttab [num * cin; cout] w)).

  (** KPConv.py:201-213, 358-370: zero columns up to 8, 16, 32 or 64. *)
  Definition kp_pad (num : nat) (t : ten) : result ten :=
    if num <? 8 then tpad1 t (8 - num)
    else if (8 <? num) && (num <? 16) then tpad1 t (16 - num)
    else if (16 <? num) && (num <? 32) then tpad1 t (32 - num)
    else if (32 <? num) && (num <? 64) then tpad1 t (64 - num)
    else Ok t.

  (** KPConv.py:193-197, 353-355: distances of the inputs to the kernel points
      moved by offsets ([None]: the constant 0 of a rigid layer). *)
  Definition kp_dists (l : kpconv) (inputs : ten) (offsets : option ten) : result ten :=
    k <- match offsets with
         | None => Ok (texpand (kp_points l) 0)
         | Some o => tbin Rplus (texpand (kp_points l) 0) o
         end ;;
    d <- tbin Rminus (texpand inputs 1) k ;;
    tnorm_last d.

  (** KPConv.py:198-232, 356-385: features weighted per kernel point,
      aggregated and multiplied with the weights. *)
  Definition kp_basis (l : kpconv) (dists : ten) (sigma : R) : result ten :=
    kp_pad (kp_num l) (tmap (fun v => kp_weighting l v sigma) dists).
  Definition kp_output (l : kpconv) (wf w : ten) : result ten :=
    wf' <- ttake2 wf (kp_num l) ;;
    m <- treshape_infer wf' [] [kp_in l * kp_num l] ;;
    tmatmul m w.
  Definition kp_aggregate (l : kpconv) (dists : ten) (sigma : R) (n : nbh) (features w : ten) : result ten :=
    b <- kp_basis l dists sigma ;;
    wf <- basis_proj b features n ;;
    kp_output l wf w.

  (** KPConv.py:317-392 _kernel_offsets: offsets per center and per pair
      (386-392). *)
  Definition kp_offsets (l : kpconv) (o : ten) (n : nbh) (num_out : nat) : result (ten * ten) :=
    per_center <- treshape o [num_out; kp_num l; kp_dims l] ;;
    per_nb <- tgather o (map snd (norig n)) ;;
    per_nb' <- treshape per_nb [length (norig n); kp_num l; kp_dims l] ;;
    Ok (per_center, per_nb').
  Definition kernel_offsets (l : kpconv) (wo : ten) (inputs : ten) (sigma : R) (n : nbh) (features : ten)
    (num_out : nat) : result (ten * ten) :=
    d <- kp_dists l inputs None ;;
    o <- kp_aggregate l d sigma n features wo ;;
    kp_offsets l o n num_out.

  (** The attributes a call leaves for the loss: KPConv.py:214-216, 282-290,
      379-381. *)
  Record kpstate := KPState {
    ks_sigma : R; ks_num : nat; ks_dists : ten; ks_nbs : list (nat * nat); ks_offsets : option ten }.

  (** KPConv.py:234-315 __call__ with 165-232 _kp_conv. *)
  Definition kpconv_call (l : kpconv) (features : feat) (pin pout : pc) (r : Q) (nb : option dnbh)
    (influence : option R) (return_sorted return_padded : bool) : result (feat * kpstate) :=
    f <- flat_features features pin ;;
    let num_out := length (pts pout) in
    let sigma := match influence with None => 1%R | Some s => (s / Q2R r)%R end in
    x <- layer_nbh (kp_dims l) pin pout r nb ;;
    inputs <- scaled_diffs (kp_dims l) pin pout r (dn x) ;;
    offs <- match kp_deform l with
            | None => Ok None
            | Some wo => o <- kernel_offsets l wo inputs sigma (dn x) f num_out ;; Ok (Some o)
            end ;;
    d <- kp_dists l inputs (match offs with Some o => Some (snd o) | None => None end) ;;
    o <- kp_aggregate l d sigma (dn x) f (kp_w l) ;;
    out <- layer_output o pout return_sorted return_padded ;;
    Ok (out, KPState sigma num_out d (norig (dn x)) (match offs with Some o => Some (fst o) | None => None end)).

  (** KPConv.py:394-429 regularization_loss after a call that left [s]; a
      rigid layer has no attribute [_offsets]. *)
  Definition set_diag0 (t : ten) : ten :=
    ttab (tshape t) (fun idx => match idx with
      | [_; a; b] => if a =? b then 0%R else tget t idx | _ => 0%R end).
  Definition regularization_loss (l : kpconv) (s : kpstate) : result R :=
    m <- tsegment dev red_min (tmap (fun v => ((v / ks_sigma s) ^ 2)%R) (ks_dists s)) (map snd (ks_nbs s)) (ks_num s) ;;
    match ks_offsets s with
    | None => Err AttributeError
    | Some o =>
      k <- tbin Rplus (texpand (kp_points l) 0) o ;;
      d <- tbin Rminus (texpand k 1) (texpand k 2) ;;
      v <- tnorm_last d ;;
      Ok (rsum (tdata m) + rsum (tdata (set_diag0 (tmap (fun x => kp_weighting l x (ks_sigma s)) v))))%R
    end.

  (** PointConv.py:58-141 __init__: hidden layer, weights, transform of the
      density. *)
  Record pointconv := PointConv {
    pt_in : nat; pt_out : nat; pt_dims : nat; pt_hidden : nat; pt_act : string;
    pt_axis : ten; pt_bias : ten; pt_w : ten;
    pt_w1 : ten; pt_b1 : ten; pt_w2 : ten; pt_b2 : ten }.
  Definition mk_pointconv (cin cout dims hidden : nat) (act : string)
    (axis bias w w1 b1 w2 b2 : list nat -> R) : pointconv :=
    PointConv cin cout dims hidden act (ttab [dims; hidden] axis) (ttab [1; hidden] bias)
      (ttab [hidden * cin; cout] w) (ttab [1; 16] w1) (ttab [1; 16] b1) (ttab [16; 1] w2) (ttab [1; 1] b2).

  (** PointConv.py:143-202 _point_conv. [tf.shape(ranges)[0]] needs the ranges
      to be a vector. *)
  Definition pt_basis (l : pointconv) (inputs : ten) (n : nbh) (pdf : list R) : result ten :=
    m0 <- tmatmul inputs (pt_axis l) ;;
    m1 <- tbin Rplus m0 (pt_bias l) ;;
    a <- non_linearity (pt_act l) ;;
    let basis := tmap a m1 in
    num <- match rshape (nranges n) with k :: _ => Ok k | [] => Err InvalidArgument end ;;
    let p := of_rows 1 (map (fun v => [v]) pdf) in
    mx <- tsegment dev red_max p (map snd (norig n)) num ;;
    mxn <- tgather mx (map snd (norig n)) ;;
    q <- tbin Rdiv p mxn ;;
    q1 <- tmatmul q (pt_w1 l) ;;
    q2 <- tbin Rplus q1 (pt_b1 l) ;;
    q3 <- tmatmul (tmap relu q2) (pt_w2 l) ;;
    q4 <- tbin Rplus q3 (pt_b2 l) ;;
    tbin Rdiv basis q4.
  Definition pt_output (l : pointconv) (wf : ten) : result ten :=
    m <- treshape_infer wf [] [pt_in l * pt_hidden l] ;;
    tmatmul m (pt_w l).
  Definition point_conv (l : pointconv) (inputs : ten) (n : nbh) (pdf : list R) (features : ten) : result ten :=
    b <- pt_basis l inputs n pdf ;;
    wf <- basis_proj b features n ;;
    pt_output l wf.

  (** PointConv.py:204-281 __call__. *)
  Definition pointconv_call (l : pointconv) (features : feat) (pin pout : pc) (r : Q) (nb : option dnbh)
    (bandwidth : R) (return_sorted return_padded : bool) : result feat :=
    f <- flat_features features pin ;;
    x <- layer_nbh (pt_dims l) pin pout r nb ;;
    pdf <- snd (get_pdf dev search kde x (repeat bandwidth (pt_dims l)) KConstant false) ;;
    diffs <- point_diffs pin pout (dn x) ;;
    o <- point_conv l diffs (dn x) pdf f ;;
    layer_output o pout return_sorted return_padded.
End Code.
