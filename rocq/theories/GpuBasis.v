(** Model of the CUDA basis projection and its gradients
    (custom_ops/tfg_custom_ops/basis_proj/cc).

    Real numbers stand for floats. Tensors are read through their flat data, as
    by the kernels; an access outside is a fault. Integers do not overflow, and
    an end before the start of a range counts as an empty range (the code
    would convert a negative number to unsigned). *)
From Coq Require Import List Arith ZArith Reals Bool.
From Verif Require Import Tensor RTensor Cuda CudaUpdate.
Import ListNotations.
Local Open Scope nat_scope.

(** basis_utils.h:26-31. *)
Definition min_basis := 8.
Definition max_basis := 64.
Definition multiple_in_features := 8.

(** The parts that both kernels have in common. [bs] is [blockDim.x], [G]
    [pGroupFeatures], [C] [pNumInFeatures]; buffer [sh] is the shared memory of
    the block. *)
Section Common.
  Variables (K G C bs : nat) (nbs : list (nat * nat)) (ends : list Z) (basis feats : list R) (sh : nat).
  (** basis_proj_kernels.cu.cc:48-52 and basis_proj_grads_kernels.cu.cc:46-52. *)
  Definition num_groups : nat := bs / K.
  Definition feature_blocks : nat := C / G.
  Definition local_id (t : nat) : nat := t mod K.
  Definition group_id (t : nat) : nat := t / K.
  (** basis_proj_kernels.cu.cc:59-60. *)
  Definition sample_id (e : nat) : nat := e / feature_blocks.
  Definition feature_offset (e : nat) : nat := (e mod feature_blocks) * G.
  (** basis_proj_kernels.cu.cc:63-67: the number of neighbors is padded to a
      multiple of the groups. *)
  Definition range_x (s : nat) : nat := match s with 0 => 0 | S k => Z.to_nat (nth k ends 0%Z) end.
  Definition range_y (s : nat) : nat := Z.to_nat (nth s ends 0%Z).
  Definition padded (s : nat) : nat :=
    let n := range_y s - range_x s in n + (num_groups - n mod num_groups).
  (** basis_proj_kernels.cu.cc:43-44. *)
  Definition accum (f t : nat) : nat * nat := (sh, f * bs + t).
  Definition feature (i : nat) : nat * nat := (sh, bs * G + i).
  (** basis_proj_kernels.cu.cc:80, 87: [curWeight]. *)
  Definition weight (t e it : nat) : option R :=
    let i := it + range_x (sample_id e) in
    if i <? range_y (sample_id e) then rd (i * K + local_id t) basis else Some 0%R.
  (** basis_proj_kernels.cu.cc:84, 90-96: the feature of the neighbor. *)
  Definition neighbor_feature (t e it : nat) : option R :=
    obind (rd (it + range_x (sample_id e)) nbs) (fun p => rd (fst p * C + feature_offset e + local_id t) feats).
End Common.

(** ** basis_proj_kernels.cu.cc:29-127 *)
Section Project.
  Variables (K G C bs : nat) (nbs : list (nat * nat)) (ends : list Z) (basis feats : list R) (b : nat).
  (** Buffer 0 is the output, buffer [1 + b] the shared memory of block [b]. *)
  Let sh := 1 + b.
  Notation NG := (num_groups K bs).
  (** Lines 70-72. *)
  Definition pj_init (t : nat) : list (action (mem R)) :=
    map (fun f => update (accum bs sh f t) [] (fun _ _ => 0%R)) (seq 0 G).
  (** Lines 79-96. *)
  Definition pj_load (t e it : nat) : list (action (mem R)) :=
    if local_id K t <? G then
      if it + range_x ends (sample_id G C e) <? range_y ends (sample_id G C e)
      then [with_input (neighbor_feature K G C nbs ends feats t e it) (fun v =>
              update (feature G bs sh (group_id K t * G + local_id K t)) [] (fun _ _ => v))]
      else [update (feature G bs sh (group_id K t * G + local_id K t)) [] (fun _ _ => 0%R)]
    else [].
  (** Lines 103-105. *)
  Definition pj_add (t e it : nat) : list (action (mem R)) :=
    map (fun f => with_input (weight K G C ends basis t e it) (fun w =>
           update (accum bs sh f t) [feature G bs sh (group_id K t * G + f)] (fun vs v => (v + hd 0 vs * w)%R))) (seq 0 G).
  (** Lines 111-123: the partial sums of the groups are read and added in one
      action. *)
  Definition pj_save (t e : nat) : list (action (mem R)) :=
    if t <? K then
      map (fun f => update (0, sample_id G C e * C * K + (feature_offset G C e + f) * K + local_id K t)
             (map (fun g => accum bs sh f (local_id K t + g * K)) (seq 0 NG)) (fun vs _ => fold_left Rplus vs 0%R)) (seq 0 G)
    else [].
  (** Lines 75-124; a barrier after every phase. *)
  Fixpoint pj_loop (t e : nat) (pre : list (action (mem R))) (its : list nat) : thread (mem R) :=
    match its with
    | [] => [pre ++ pj_save t e]
    | it :: r => (pre ++ pj_load t e it) :: pj_add t e it :: pj_loop t e [] r
    end.
  Definition pj_round (t e : nat) : thread (mem R) :=
    pj_loop t e (pj_init t) (strided (group_id K t) NG (padded K bs ends (sample_id G C e))).
  Definition pj_thread (blocks total t : nat) : thread (mem R) := flat_map (pj_round t) (strided b blocks total) ++ [[]].
End Project.
Definition pj_kernel (K G C bs : nat) (nbs : list (nat * nat)) (ends : list Z) (basis feats : list R) (blocks total : nat) : list (block (mem R)) :=
  map (fun b => map (pj_thread K G C bs nbs ends basis feats b blocks total) (seq 0 bs)) (seq 0 blocks).

(** basis_proj_kernels.cu.cc:131-182. [active] is [numMP] times the active
    blocks per multiprocessor. The shared memory is not initialised. *)
Definition basis_proj_gpu (active K C : nat) (nbs : list (nat * nat)) (ends : list Z) (basis feats : list R) (P : list R -> Prop) : Prop :=
  let S := length ends in
  let bs := 64 in
  let G := Nat.min multiple_in_features C in
  let total := S * feature_blocks G C in
  let blocks := Nat.min active total in
  forall shared, length shared = blocks -> Forall (fun l => length l = bs * (G + 1)) shared ->
    launch blocks (repeat 0%R (S * C * K) :: shared) (pj_kernel K G C bs nbs ends basis feats blocks total)
      (fun m => P (hd [] m)).

(** basis_proj_ops.cpp:98-113 and 179-198: the checks of the operations. *)
Definition accepted_basis (k : nat) : bool := existsb (Nat.eqb k) [8; 16; 32; 64].
Definition accepted_features (c : nat) : bool := (0 <? c) && ((c <? 8) || (c mod multiple_in_features =? 0)).
(** basis_proj_ops.cpp:77-132 and custom_ops_wrapper.py:172-189: the neighbors
    are the original ids. *)
Definition basis_proj_op (active : nat) (basis feats : ten) (nbs : list (nat * nat)) (ends : list Z) (P : ten -> Prop) : Prop :=
  exists M K N C, tshape basis = [M; K] /\ tshape feats = [N; C] /\
    accepted_basis K = true /\ accepted_features C = true /\ M = length nbs /\
    basis_proj_gpu active K C nbs ends (tdata basis) (tdata feats) (fun out => P (Ten [length ends; C; K] out)).

(** ** basis_proj_grads_kernels.cu.cc:29-151 *)
Section Grads.
  Variables (K G C bs : nat) (nbs : list (nat * nat)) (ends : list Z) (basis feats grads : list R) (b : nat).
  (** Buffer 0 is the output for the basis, buffer 1 that for the features,
      buffer [2 + 2 b] the shared memory of block [b], and buffer [3 + 2 b] has
      the register [curWeightGrad] of each of its threads. *)
  Let sh := 2 + 2 * b.
  Let reg (t : nat) : nat * nat := (3 + 2 * b, t).
  Notation NG := (num_groups K bs).
  (** Lines 55-56. *)
  Definition in_grad (i : nat) : nat * nat := (sh, bs * G + NG * G + i).
  (** Lines 74-78. *)
  Definition gr_init (t e : nat) : list (action (mem R)) :=
    map (fun i => with_input (rd (sample_id G C e * C * K + feature_offset G C e * K + i) grads) (fun v =>
           update (in_grad i) [] (fun _ _ => v))) (strided t bs (K * G)).
  (** Lines 93-106. *)
  Definition gr_load (t e it : nat) : list (action (mem R)) :=
    if (it + range_x ends (sample_id G C e) <? range_y ends (sample_id G C e)) && (local_id K t <? G)
    then [with_input (neighbor_feature K G C nbs ends feats t e it) (fun v =>
            update (feature G bs sh (group_id K t * G + local_id K t)) [] (fun _ _ => v))]
    else [].
  (** Lines 111-123: the loop is split into the writes of the products and the
      sum in the register. *)
  Definition gr_products (t e it : nat) : list (action (mem R)) :=
    map (fun f => with_input (weight K G C ends basis t e it) (fun w =>
           update (accum bs sh f t) [in_grad (f * K + local_id K t)] (fun vs _ => (hd 0 vs * w)%R))) (seq 0 G) ++
    [update (reg t) (flat_map (fun f => [in_grad (f * K + local_id K t); feature G bs sh (group_id K t * G + f)]) (seq 0 G))
       (fun vs _ => kahan (map (fun f => nth (2 * f) vs 0 * nth (2 * f + 1) vs 0)%R (seq 0 G)))].
  (** Lines 128-146. *)
  Definition gr_store (t e it : nat) : list (action (mem R)) :=
    let i := it + range_x ends (sample_id G C e) in
    if i <? range_y ends (sample_id G C e) then
      update (0, i * K + local_id K t) [reg t] (fun vs w => (w + hd 0 vs)%R) ::
      (if local_id K t <? G then
         [with_input (rd i nbs) (fun p =>
            update (1, fst p * C + feature_offset G C e + local_id K t)
              (map (fun k => accum bs sh (local_id K t) (group_id K t * K + k)) (seq 0 K)) (fun vs w => (w + kahan vs)%R))]
       else [])
    else [].
  Definition gr_round (t e : nat) : thread (mem R) :=
    gr_init t e :: flat_map (fun it => [gr_load t e it; gr_products t e it; gr_store t e it])
      (strided (group_id K t) NG (padded K bs ends (sample_id G C e))).
  Definition gr_thread (blocks total t : nat) : thread (mem R) := flat_map (gr_round t) (strided b blocks total) ++ [[]].
End Grads.
Definition gr_kernel (K G C bs : nat) (nbs : list (nat * nat)) (ends : list Z) (basis feats grads : list R) (blocks total : nat) : list (block (mem R)) :=
  map (fun b => map (gr_thread K G C bs nbs ends basis feats grads b blocks total) (seq 0 bs)) (seq 0 blocks).

(** basis_proj_grads_kernels.cu.cc:156-211. [P] gets the gradients of the basis
    and of the features. *)
Definition basis_proj_grads_gpu (active K C N : nat) (nbs : list (nat * nat)) (ends : list Z) (basis feats grads : list R)
  (P : list R -> list R -> Prop) : Prop :=
  let S := length ends in
  let bs := 64 in
  let G := Nat.min multiple_in_features C in
  let total := S * feature_blocks G C in
  let blocks := Nat.min active total in
  forall shared, length shared = blocks ->
    Forall (fun p => length (fst p) = G * (bs + bs / K + K) /\ length (snd p) = bs) shared ->
    launch blocks (repeat 0%R (K * length nbs) :: repeat 0%R (N * C) :: flat_map (fun p => [fst p; snd p]) shared)
      (gr_kernel K G C bs nbs ends basis feats grads blocks total)
      (fun m => P (nth 0 m []) (nth 1 m [])).
(** basis_proj_ops.cpp:156-222 and custom_ops_wrapper.py:192-198. *)
Definition basis_proj_grads_op (active : nat) (basis feats : ten) (nbs : list (nat * nat)) (ends : list Z) (grads : ten)
  (P : ten -> ten -> Prop) : Prop :=
  exists M K N C, tshape basis = [M; K] /\ tshape feats = [N; C] /\
    accepted_basis K = true /\ accepted_features C = true /\ M = length nbs /\ tshape grads = [length ends; C; K] /\
    basis_proj_grads_gpu active K C N nbs ends (tdata basis) (tdata feats) (tdata grads) (fun db df =>
      P (Ten [length nbs; K] db) (Ten [N; C] df)).
