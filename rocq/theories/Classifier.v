(** Model of the classification networks of modelnet40_small.py and
    modelnet40.py.

    Between the layers the features are a matrix with one row per point. Batch
    normalisation and dropout are arbitrary functions of such a matrix ([bn k]
    and [drop k] are the layers number [k] with their state, in training or
    inference mode). Loading of the data, losses and optimizers are not part of
    this file. *)
From Coq Require Import String List Arith ZArith QArith Reals Bool.
From Verif Require Import Tensor PointCloud Grid Neighbors Neighborhood Sampling Hierarchy Pdf RTensor Kernels Layers Blocks.
Import ListNotations.
Local Open Scope nat_scope.

(** The variables of one convolution of any kind; [cv_angles] are the angles
    drawn for the kernel points of a KPConv (KPConv.py:124-125). *)
Record conv_vars := ConvVars {
  cv_w : nat -> list nat -> R; cv_b : nat -> list nat -> R; cv_fw : list nat -> R;
  cv_angles : R * R * R; cv_kw : list nat -> R;
  cv_axis : list nat -> R; cv_bias : list nat -> R; cv_pw : list nat -> R;
  cv_w1 : list nat -> R; cv_b1 : list nat -> R; cv_w2 : list nat -> R; cv_b2 : list nat -> R }.

(** The choice of the convolution by its exact name: modelnet40_small.py:156-176,
    modelnet40.py:163-183 and 297-317. The arguments not given are the defaults
    of the constructors: leaky_relu (MCConv.py:61-70), relu (PointConv.py:58-66),
    a rigid layer with linear weighting (KPConv.py:94-105). *)
Definition script_layer (layer_type : string) (mlps hidden_mc hidden_pt num : nat) (cin cout : result nat) (v : conv_vars)
  : result conv_layer :=
  if String.eqb layer_type "MCConv" then
    i <- cin ;; o <- cout ;; new_layer i o 3 TMC (AMC mlps [hidden_mc] "leaky_relu" (cv_w v) (cv_b v) (cv_fw v))
  else if String.eqb layer_type "PointConv" then
    i <- cin ;; o <- cout ;;
    new_layer i o 3 TPT (APT hidden_pt "relu" (cv_axis v) (cv_bias v) (cv_pw v) (cv_w1 v) (cv_b1 v) (cv_w2 v) (cv_b2 v))
  else if String.eqb layer_type "KPConv" then
    i <- cin ;; o <- cout ;;
    new_layer i o 3 TKP (AKP num false "linear" None (fun n => spherical_kernel_points n (Some (cv_angles v))) (cv_kw v) (fun _ => 0%R))
  else Err ValueError.

(** [tf.keras.layers.LeakyReLU()]: slope 0.3. *)
Definition keras_leaky (x : R) : R := if Rlt_dec 0 x then x else (3 / 10 * x)%R.
Definition leaky_layer (X : mat) : mat := map (map keras_leaky) X.

(** A function of matrices applied to flat features (networks without levels
    would apply it to padded ones: not modelled). *)
Definition on_rows (f : mat -> mat) (x : feat) : result feat :=
  match frows x with inr rows => Ok (Feat (fch x) (inr (f rows))) | inl _ => Err OutOfScope end.

(** [tf.keras.layers.Dense(units)]: the kernel is made for the number of
    channels of the first call. *)
Definition dense (units : nat) (w b : list nat -> R) (x : feat) : result feat :=
  match frows x with
  | inr rows =>
    m <- tmatmul (of_rows (fch x) rows) (ttab [fch x; units] w) ;;
    o <- tbin Rplus m (ttab [1; units] b) ;;
    Ok (Feat units (inr (to_rows o)))
  | inl _ => Err OutOfScope
  end.

(** [features_a + features_b] of two flat feature matrices. *)
Definition add_features (x y : feat) : result feat :=
  a <- as_ten x ;; b <- as_ten y ;; t <- tbin Rplus a b ;; as_feat t.

(** A Python sequence indexed by a natural number. *)
Definition item {A} (l : list A) (i : nat) : result A := py_nth l (Z.of_nat i).

Section Code.
  Context (dev : device) (eps : Q) (search : search_fn) (kde : kde_fn).

  (** A convolution called with features, clouds and radius only: bandwidth 0.2
      (MCConv.py:202, PointConv.py:210), no influence distance (KPConv.py:241). *)
  Definition script_conv (l : conv_layer) (f : feat) (pin pout : pc) (r : Q) (return_sorted : bool) : result feat :=
    match l with
    | LMC c => mcconv_call dev eps search kde c f pin pout r None (2 / 10)%R return_sorted false
    | LPT c => pointconv_call dev eps search kde c f pin pout r None (2 / 10)%R return_sorted false
    | LKP c => o <- kpconv_call dev eps search c f pin pout r None None return_sorted false ;; Ok (fst o)
    end.

  (** The clouds of one call: modelnet40_small.py:226-230, modelnet40.py:363-366.
      The sizes are a vector, the batch size is a global constant. *)
  Definition script_hierarchy (fuel : nat) (draws : nat -> nat -> nat) (batch_size : nat) (points : padded point)
    (sizes : list nat) (radii : list Q) (mode : string) : option (result hierarchy) :=
    match init (PN 3 points) None (Some batch_size) (Some (ITensor [length sizes] sizes)) with
    | Err e => Some (Err e)
    | Ok p => mk_hierarchy dev eps search fuel draws p (map (fun r => CVector [r]) radii) mode
    end.

  (** ** modelnet40_small.py *)
  (** modelnet40_small.py:134-196 __init__. The lists [conv_layers],
      [batch_layers] and [activations] are filled in one loop; only the first one
      is kept here, the number of batch normalisations is [sn_norms]. *)
  Record small_net := SmallNet {
    sn_levels : nat; sn_radii : list Q; sn_conv_radii : list Q; sn_mode : string;
    sn_layers : list (conv_layer + conv1x1); sn_norms : nat;
    sn_units1 : nat; sn_units2 : nat }.
  Definition mk_small (feature_sizes : list nat) (sample_radii conv_radii : list Q) (layer_type sampling_method : string)
    (vars : nat -> conv_vars) (ow ob : nat -> list nat -> R) : result small_net :=
    let L := length sample_radii in
    ls <- build (fun i =>
            c <- script_layer layer_type 4 8 32 15 (item feature_sizes i) (item feature_sizes (i + 1)) (vars i) ;;
            if (Z.of_nat i <? Z.of_nat L - 1)%Z then
              n <- item feature_sizes (i + 1) ;; o <- mk_conv1x1 n n (ow i) (ob i) ;; Ok [inl c; inr o]
            else Ok [inl c]) (seq 0 L) ;;
    u1 <- py_nth feature_sizes (-2) ;;
    u2 <- py_nth feature_sizes (-1) ;;
    Ok (SmallNet L sample_radii conv_radii sampling_method (concat ls) (2 * (L - 1) + 2) u1 u2).

  (** modelnet40_small.py:232-252: the loop over the levels. A Conv1x1 called as
      a convolution and vice versa has arguments of the wrong kind. *)
  Definition conv_item (net : small_net) (k : nat) : result conv_layer :=
    l <- item (sn_layers net) k ;; match l with inl c => Ok c | inr _ => Err TypeError end.
  Definition one_item (net : small_net) (k : nat) : result conv1x1 :=
    l <- item (sn_layers net) k ;; match l with inr c => Ok c | inl _ => Err TypeError end.
  Fixpoint small_loop (net : small_net) (bn : nat -> mat -> mat) (h : hierarchy) (levels : list nat) (x : feat) : result feat :=
    match levels with
    | [] => Ok x
    | i :: rest =>
      c <- conv_item net (i * 2) ;;
      pin <- h_getitem h (Z.of_nat i) ;;
      pout <- h_getitem h (Z.of_nat i + 1) ;;
      r <- item (sn_conv_radii net) i ;;
      if (Z.of_nat i <? Z.of_nat (sn_levels net) - 1)%Z then
        x1 <- script_conv c x pin pout r false ;;
        x2 <- on_rows (fun X => leaky_layer (bn (i * 2) X)) x1 ;;
        o <- one_item net (i * 2 + 1) ;;
        x3 <- conv1x1_call o x2 pout false false ;;
        x4 <- on_rows (fun X => leaky_layer (bn (i * 2 + 1) X)) x3 ;;
        small_loop net bn h rest x4
      else
        x1 <- script_conv c x pin pout r true ;;
        small_loop net bn h rest x1
    end.
  (** modelnet40_small.py:205-261 __call__; [-2] and [-1] index the lists of
      batch normalisations and dropouts. *)
  Definition small_call (net : small_net) (bn drop : nat -> mat -> mat) (dw db : nat -> list nat -> R)
    (fuel : nat) (draws : nat -> nat -> nat) (batch_size : nat)
    (points : padded point) (features : feat) (sizes : list nat) : option (result feat) :=
    match script_hierarchy fuel draws batch_size points sizes (sn_radii net) (sn_mode net) with
    | None => None
    | Some (Err e) => Some (Err e)
    | Some (Ok h) => Some (
      x <- small_loop net bn h (seq 0 (sn_levels net)) features ;;
      x1 <- on_rows (fun X => drop 0 (leaky_layer (bn (sn_norms net - 2) X))) x ;;
      x2 <- dense (sn_units1 net) (dw 0) (db 0) x1 ;;
      x3 <- on_rows (fun X => drop 1 (leaky_layer (bn (sn_norms net - 1) X))) x2 ;;
      dense (sn_units2 net) (dw 1) (db 1) x3)
    end.

  (** ** modelnet40.py *)
  (** modelnet40.py:141-203 conv_block.__init__; the normalisations of the block
      are numbered 0, 1, 2 and 3 for the skip branch. *)
  Record block := Block {
    bk_down : conv1x1; bk_conv : conv_layer; bk_up : conv1x1; bk_strided : bool; bk_skip : option conv1x1 }.
  Record block_vars := BlockVars {
    bv_dw : list nat -> R; bv_db : list nat -> R; bv_conv : conv_vars;
    bv_uw : list nat -> R; bv_ub : list nat -> R; bv_sw : list nat -> R; bv_sb : list nat -> R }.
  Definition mk_block (cin cout : nat) (layer_type : string) (strided : bool) (v : block_vars) : result block :=
    let inner := cout / 4 in
    d <- mk_conv1x1 cin inner (bv_dw v) (bv_db v) ;;
    c <- script_layer layer_type 1 16 32 15 (Ok inner) (Ok inner) (bv_conv v) ;;
    u <- mk_conv1x1 inner cout (bv_uw v) (bv_ub v) ;;
    s <- (if cin =? cout then Ok None else o <- mk_conv1x1 cin cout (bv_sw v) (bv_sb v) ;; Ok (Some o)) ;;
    Ok (Block d c u strided s).
  (** modelnet40.py:205-257 conv_block.__call__; [bn k] is the normalisation
      number [k] of the block. [pool] is the radius of the pooling, a vector. *)
  Definition block_call (b : block) (bn : nat -> mat -> mat) (x : feat) (pin pout : pc) (r : Q) (pool : option (list Q)) : result feat :=
    r1 <- on_rows (fun X => leaky_layer (bn 0 X)) x ;;
    r2 <- conv1x1_call (bk_down b) r1 pin false false ;;
    r3 <- on_rows (fun X => leaky_layer (bn 1 X)) r2 ;;
    r4 <- script_conv (bk_conv b) r3 pin pout r false ;;
    r5 <- on_rows (fun X => leaky_layer (bn 2 X)) r4 ;;
    r6 <- conv1x1_call (bk_up b) r5 pout false false ;;
    s1 <- (if bk_strided b then max_pooling dev eps search x pin pout pool false false else Ok x) ;;
    s2 <- match bk_skip b with
          | None => Ok s1
          | Some o => t <- on_rows (fun X => leaky_layer (bn 3 X)) s1 ;; conv1x1_call o t pout false false
          end ;;
    add_features r6 s2.

  (** modelnet40.py:275-336 __init__. The first level has the initial
      convolution, the others a strided block; every level has a block. *)
  Record large_net := LargeNet {
    ln_levels : nat; ln_radii : list Q; ln_conv_radii : list Q; ln_mode : string;
    ln_init : list conv_layer; ln_strided : list block; ln_blocks : list block; ln_units1 : nat; ln_units2 : nat }.
  Definition mk_large (feature_sizes : list nat) (pool_radii conv_radii : list Q) (layer_type sampling_method : string)
    (iv : conv_vars) (sv bv : nat -> block_vars) : result large_net :=
    let L := length pool_radii in
    ls <- build (fun i =>
            a <- (if i =? 0 then
                    c <- script_layer layer_type 1 16 32 15 (Ok 1) (item feature_sizes i) iv ;; Ok ([c], [])
                  else
                    m <- item feature_sizes (i - 1) ;; n <- item feature_sizes i ;;
                    b <- mk_block m n layer_type true (sv i) ;; Ok ([], [b])) ;;
            n <- item feature_sizes i ;;
            b <- mk_block n n layer_type false (bv i) ;;
            Ok (fst a, snd a, b)) (seq 0 L) ;;
    u1 <- py_nth feature_sizes (-2) ;;
    u2 <- py_nth feature_sizes (-1) ;;
    Ok (LargeNet L pool_radii conv_radii sampling_method (concat (map (fun x => fst (fst x)) ls))
          (concat (map (fun x => snd (fst x)) ls)) (map snd ls) u1 u2).

  (** [features[0:n, :]]: the first [n] entries along the first axis, which for
      padded features of shape [B, V, C] is the axis of the batch elements. *)
  Definition first_entries (n : nat) (x : feat) : feat :=
    match frows x with
    | inr rows => Feat (fch x) (inr (firstn n rows))
    | inl t =>
      match pshape t with
      | [] => x
      | b :: rest =>
        let m := Nat.min n b in
        Feat (fch x) (inl (Padded (m :: rest) (pV t) (firstn (m * nprod rest * pV t) (prows t))))
      end
    end.

  (** modelnet40.py:368-389: the loop over the levels. The radius of the strided
      blocks is the entry of a matrix with one column, a vector. [bns i] and
      [bnb i] are the normalisations of the strided block and of the block of
      level [i]. *)
  Fixpoint large_loop (net : large_net) (bns bnb : nat -> nat -> mat -> mat) (h : hierarchy) (levels : list nat) (x : feat)
    : result feat :=
    match levels with
    | [] => Ok x
    | i :: rest =>
      pout <- h_getitem h (Z.of_nat i + 1) ;;
      x1 <- (if i =? 0 then
               c <- item (ln_init net) 0 ;;
               r <- item (ln_conv_radii net) i ;;
               script_conv c (first_entries (length (pts pout)) x) pout pout r false
             else
               b <- item (ln_strided net) (i - 1) ;;
               pin <- h_getitem h (Z.of_nat i) ;;
               r <- item (ln_radii net) i ;;
               block_call b (bns i) x pin pout r (Some [r])) ;;
      b <- item (ln_blocks net) i ;;
      r <- item (ln_conv_radii net) i ;;
      x2 <- block_call b (bnb i) x1 pout pout r None ;;
      large_loop net bns bnb h rest x2
    end.
  (** modelnet40.py:345-400 __call__; in the head the second dropout precedes the
      activation. *)
  Definition large_call (net : large_net) (bns bnb : nat -> nat -> mat -> mat) (bn drop : nat -> mat -> mat)
    (dw db : nat -> list nat -> R) (fuel : nat) (draws : nat -> nat -> nat) (batch_size : nat)
    (points : padded point) (features : feat) (sizes : list nat) : option (result feat) :=
    match script_hierarchy fuel draws batch_size points sizes (ln_radii net) (ln_mode net) with
    | None => None
    | Some (Err e) => Some (Err e)
    | Some (Ok h) => Some (
      x <- large_loop net bns bnb h (seq 0 (ln_levels net)) features ;;
      last_cloud <- h_getitem h (-1) ;;
      t <- global_average_pooling dev x last_cloud false ;;
      x0 <- as_feat t ;;
      x1 <- on_rows (fun X => drop 0 (leaky_layer (bn 0 X))) x0 ;;
      x2 <- dense (ln_units1 net) (dw 0) (db 0) x1 ;;
      x3 <- on_rows (fun X => leaky_layer (drop 1 (bn 1 X))) x2 ;;
      dense (ln_units2 net) (dw 1) (db 1) x3)
    end.
End Code.
