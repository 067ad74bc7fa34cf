(** Model of the CUDA sampling operation
    (custom_ops/tfg_custom_ops/sampling), of its Python wrapper and of the
    Python functions that use it. *)
From Coq Require Import String List Arith ZArith NArith QArith Lia Bool.
From Verif Require Import Tensor PointCloud Grid Neighbors Neighborhood Sampling Cuda GpuGrid GpuNeighbors.
Import ListNotations.
Local Open Scope Z_scope.

(** The kernels differ in the number of blocks that can be active at once. *)
Inductive skernel := SCountKeys | SStoreKeys | SPoisson | SStorePts | SAverage.

(** ** Unique keys *)
(** count_unique_keys_kernels.cu.cc:34-68. Buffer 0 is the global counter,
    buffer [1 + b] the shared [localCounter] of block [b]. The read of the local
    counter and its addition to the global one are one action: nobody writes
    the local counter after the second barrier. *)
Definition count_keys_thread (keys : list Z) (blocks bs b t : nat) : thread (mem Z) :=
  [ (if Nat.eqb t 0 then [put (S b, O) 0] else []);
    flat_map (fun i =>
      match rd i keys, rd (S i) keys with
      | Some k, Some k' => if k =? k' then [] else [modify (S b, O) (fun v => v + 1)]
      | _, _ => [fun _ => None]
      end) (strided (t + bs * b) (blocks * bs) (length keys - 1));
    (if Nat.eqb t 0 then [fun m => obind (get (S b, O) m) (fun v => modify (O, O) (fun w => w + v) m)] else []) ].
(** count_unique_keys_kernels.cu.cc:72-120: blocks of four warps. The shared
    memory is not initialised. [pNumPts - 1] is unsigned; for an empty cloud,
    where it wraps, no block is launched. *)
Definition count_unique_keys_gpu (active warp : nat) (keys : list Z) (P : Z -> Prop) : Prop :=
  let bs := (4 * warp)%nat in
  let blocks := num_blocks active bs (length keys) in
  forall temps, length temps = blocks -> Forall (fun l => length l = 1%nat) temps ->
    launch blocks ([0] :: temps)
      (map (fun b => map (count_keys_thread keys blocks bs b) (seq 0 bs)) (seq 0 blocks))
      (fun m => exists c, get (O, O) m = Some c /\ P (c + 1)).

(** Kernels in which threads allot slots of one output buffer with one global
    counter. [sl_reg] holds the slot taken by each thread, [g] is the global
    index of the thread. *)
Record slots (V : Type) := Slots { sl_cnt : Z; sl_reg : list Z; sl_out : list V }.
Arguments Slots {V}. Arguments sl_cnt {V}. Arguments sl_reg {V}. Arguments sl_out {V}.
Definition slot_take {V} (g : nat) (m : slots V) : option (slots V) :=
  obind (wr g (sl_cnt m) (sl_reg m)) (fun r => Some (Slots (sl_cnt m + 1) r (sl_out m))).
Definition slot_fill {V} (g : nat) (v : V) (m : slots V) : option (slots V) :=
  obind (rd g (sl_reg m)) (fun i => obind (wrz i v (sl_out m)) (fun o => Some (Slots (sl_cnt m) (sl_reg m) o))).
(** [sel i]: what iteration [i] stores, if it does; [None] is a fault. *)
Definition slot_body {V} (sel : nat -> option (option V)) (g i : nat) : list (action (slots V)) :=
  match sel i with
  | None => [fun _ => None]
  | Some None => []
  | Some (Some v) => [slot_take g; slot_fill g v]
  end.

(** store_unique_keys_kernels.cu.cc:36-56. *)
Definition key_start (keys : list Z) (i : nat) : option (option nat) :=
  match i with
  | O => Some (Some O)
  | S j => obind (rd i keys) (fun k => obind (rd j keys) (fun k' => if k =? k' then Some None else Some (Some i)))
  end.
(** store_unique_keys_kernels.cu.cc:60-94: blocks of four warps. The registers
    and the output buffer, of the size computed before, are not initialised. *)
Definition store_unique_keys_gpu (active warp : nat) (keys : list Z) (num : Z) (P : list nat -> Prop) : Prop :=
  let bs := (4 * warp)%nat in
  let blocks := num_blocks active bs (length keys) in
  forall regs out, length regs = (blocks * bs)%nat -> length out = Z.to_nat num ->
    launch blocks (Slots 0 regs out) (thread_kernel blocks bs (length keys) (slot_body (key_start keys)))
      (fun m => P (sl_out m)).

(** ** Poisson disk sampling *)
(** [while (i < n && keys[i] == key) i++]: the points of a cell. *)
Fixpoint same_run (key : Z) (l : list Z) (i : nat) : list nat :=
  match l with k :: r => if k =? key then i :: same_run key r (S i) else [] | [] => [] end.
Definition cell_points (keys : list Z) (start : nat) : list nat :=
  match rd start keys with Some key => same_run key (skipn start keys) start | None => [] end.

(** count_sampling_pd_kernels.cu.cc:68-95. [pm_reg] holds the register [valid]
    of each thread. Every access to [pUsed] and to the counter is an action of
    its own. *)
Record pmem := PMem { pm_cnt : Z; pm_used : list Z; pm_reg : list bool }.
Definition pd_start (g : nat) (m : pmem) : option pmem :=
  obind (wr g true (pm_reg m)) (fun r => Some (PMem (pm_cnt m) (pm_used m) r)).
Definition pd_check (g j : nat) (m : pmem) : option pmem :=
  obind (rd g (pm_reg m)) (fun v =>
    if v then obind (rd j (pm_used m)) (fun u => obind (wr g (u =? 0) (pm_reg m)) (fun r =>
                Some (PMem (pm_cnt m) (pm_used m) r)))
    else Some m).
Definition pd_count (g : nat) (m : pmem) : option pmem :=
  obind (rd g (pm_reg m)) (fun v => Some (if v then PMem (pm_cnt m + 1) (pm_used m) (pm_reg m) else m)).
Definition pd_mark (g p : nat) (m : pmem) : option pmem :=
  obind (rd g (pm_reg m)) (fun v =>
    if v then obind (wr p 1 (pm_used m)) (fun u => Some (PMem (pm_cnt m) u (pm_reg m))) else Some m).
(** The neighbors of point [p]: first column of the rows from [ranges[p-1]] up
    to [ranges[p]]. *)
Definition row_reads (nbs : list (nat * nat)) (s e : Z) : option (list nat) :=
  if e <=? s then Some []
  else if (s <? 0) || (Z.of_nat (length nbs) <? e) then None
  else Some (map fst (firstn (Z.to_nat (e - s)) (skipn (Z.to_nat s) nbs))).
Definition pd_neighbors (ranges : list Z) (nbs : list (nat * nat)) (p : nat) : option (list nat) :=
  obind (match p with O => Some 0 | S q => rd q ranges end) (fun s =>
  obind (rd p ranges) (fun e => row_reads nbs s e)).
Definition pd_point (ranges : list Z) (nbs : list (nat * nat)) (g p : nat) : list (action pmem) :=
  match pd_neighbors ranges nbs p with
  | None => [fun _ => None]
  | Some l => pd_start g :: map (pd_check g) l ++ [pd_count g; pd_mark g p]
  end.
(** One iteration, count_sampling_pd_kernels.cu.cc:46-96. [code] gives the
    parity of the cells treated in this call. *)
Definition pd_body (nc keys : list Z) (ranges : list Z) (nbs : list (nat * nat)) (firsts : list nat) (code : list Z)
  (g i : nat) : list (action pmem) :=
  match obind (rd i firsts) (fun s => option_map (pair s) (rd s keys)) with
  | None => [fun _ => None]
  | Some (s, key) =>
    let cell := snd (gpu_cell_from_key nc key) in
    if forallb (fun d => Z.rem (nth d cell 0) 2 =? nth d code 0) (seq 0 (length nc))
    then flat_map (pd_point ranges nbs g) (cell_points keys s) else []
  end.
(** count_sampling_pd_kernels.cu.cc:164-171. *)
Definition pd_code (D call : nat) : list Z := map (fun i => Z.of_nat (call / 2 ^ i mod 2)) (seq 0 D).
(** count_sampling_pd_kernels.cu.cc:102-199: the counter and the marks are set
    to zero, then the kernel is launched [2^D] times in blocks of four warps. *)
Fixpoint pd_calls (blocks bs : nat) (nc keys ranges : list Z) (nbs : list (nat * nat)) (firsts : list nat)
  (calls : list nat) (cnt : Z) (used : list Z) (P : Z -> list Z -> Prop) : Prop :=
  match calls with
  | [] => P cnt used
  | c :: r => forall regs, length regs = (blocks * bs)%nat ->
      launch blocks (PMem cnt used regs)
        (thread_kernel blocks bs (length firsts) (pd_body nc keys ranges nbs firsts (pd_code (length nc) c)))
        (fun m => pd_calls blocks bs nc keys ranges nbs firsts r (pm_cnt m) (pm_used m) P)
  end.
Definition count_sampling_pd_gpu (active warp : nat) (n : nat) (nc keys ranges : list Z) (nbs : list (nat * nat)) (firsts : list nat)
  (P : Z -> list Z -> Prop) : Prop :=
  let bs := (4 * warp)%nat in
  pd_calls (num_blocks active bs (length firsts)) bs nc keys ranges nbs firsts (seq 0 (2 ^ length nc)) 0 (repeat 0 n) P.

(** store_sampled_pts_kernels.cu.cc:41-69: the three entries of a row (point,
    element, index) are written in one action. *)
Definition chosen (ps : list point) (ids : list nat) (used : list Z) (i : nat) : option (option (point * nat * nat)) :=
  obind (rd i used) (fun u =>
    if u =? 1 then obind (rd i ps) (fun p => obind (rd i ids) (fun b => Some (Some (p, b, i)))) else Some None).
(** store_sampled_pts_kernels.cu.cc:73-121: blocks of four warps. *)
Definition store_sampled_pts_gpu (active warp : nat) (ps : list point) (ids : list nat) (used : list Z) (num : Z)
  (P : list (point * nat * nat) -> Prop) : Prop :=
  let bs := (4 * warp)%nat in
  let blocks := num_blocks active bs (length ps) in
  forall regs out, length regs = (blocks * bs)%nat -> length out = Z.to_nat num ->
    launch blocks (Slots 0 regs out) (thread_kernel blocks bs (length ps) (slot_body (chosen ps ids used)))
      (fun m => P (sl_out m)).

(** ** Cell averages *)
(** sampling_avg_kernels.cu.cc:53-87, one iteration: the sum of the points of
    the cell divided by their number, and the element computed from the key.
    The two entries of a row are written in one action. *)
Definition avg_point (D : nat) (rows : list point) : point :=
  map (fun d => (fold_left Qplus (map (fun r => coord r d) rows) 0 / inject_Z (Z.of_nat (length rows)))%Q) (seq 0 D).
Definition avg_body (D : nat) (nc keys : list Z) (ps : list point) (firsts : list nat) (i : nat) : list (action (list (point * Z))) :=
  [fun out =>
    obind (rd i firsts) (fun s => obind (rd s keys) (fun key =>
      if forallb (fun j => Nat.ltb j (length ps)) (cell_points keys s)
      then wr i (avg_point D (map (fun j => nth j ps []) (cell_points keys s)), Z.quot key (zprod nc)) out else None))].
(** sampling_avg_kernels.cu.cc:92-147: blocks of four warps. *)
Definition sampling_avg_gpu (active warp D : nat) (nc keys : list Z) (ps : list point) (firsts : list nat)
  (P : list (point * Z) -> Prop) : Prop :=
  let bs := (4 * warp)%nat in
  let blocks := num_blocks active bs (length firsts) in
  forall out, length out = length firsts ->
    launch blocks out (flat_kernel blocks bs (length firsts) (avg_body D nc keys ps firsts)) P.

(** ** The operation *)
(** sampling_ops.cpp:78-192. Outputs: points, elements and indices. In mode 1
    the tensor of the indices has one entry and is not initialised. *)
Definition sampling_op (active : skernel -> nat) (warp D : nat) (ps : list point) (ids : list nat) (keys nc : list Z)
  (nbs : list (nat * nat)) (ranges : list Z) (mode : nat) (P : list point -> list Z -> list Z -> Prop) : Prop :=
  (mode < 2)%nat /\ supported D /\ length ids = length ps /\ length keys = length ps /\ length nc = D /\ length ranges = length ps /\
  count_unique_keys_gpu (active SCountKeys) warp keys (fun num =>
  store_unique_keys_gpu (active SStoreKeys) warp keys num (fun firsts =>
    match mode with
    | O =>
      count_sampling_pd_gpu (active SPoisson) warp (length ps) nc keys ranges nbs firsts (fun cnt used =>
      store_sampled_pts_gpu (active SStorePts) warp ps ids used cnt (fun out =>
        P (map (fun r => fst (fst r)) out) (map (fun r => Z.of_nat (snd (fst r))) out) (map (fun r => Z.of_nat (snd r)) out)))
    | _ =>
      sampling_avg_gpu (active SAverage) warp D nc keys ps firsts (fun out =>
        forall junk, P (map fst out) (map snd out) [junk])
    end)).

(** ** The Python side *)
(** custom_ops_wrapper.py:108-133 sampling. *)
Definition sampling_gpu (active : skernel -> nat) (warp : nat) (n : nbh) (mode : nat) (P : list point -> list Z -> list Z -> Prop) : Prop :=
  let g := ngrid n in
  sampling_op active warp (dim (gcloud g)) (gspts g) (gsbids g) (gskeys g) (gnc g) (nnbs n) (rdata (nranges n)) mode P.

(** Neighborhood.py:218-255 __init__ with the CUDA search and without a second
    cloud. The cached access structure of the grid is left out: sampling does
    not use it. *)
Definition mk_nbh_gpu (active : kernel -> nat) (warp : nat) (time : N) (g : grid) (radius : list Q) (k : nat) (P : nbh -> Prop) : Prop :=
  let radii := bcast (dim (gcloud g)) radius in
  exists c, sorted_cloud g = Ok c /\
    find_neighbors_gpu active warp time g c radii k (fun ends nbs =>
      exists l, original_ids g nbs = Ok l /\
        P (Nbh g true c radii k (Ranges [length (bids c)] ends) nbs l)).

(** sampling.py:123-150 sample with the CUDA operation. A negative element or
    index is an error; [tf.gather] on the device returns zero instead, which is
    not modelled. *)
Definition to_nats (l : list Z) : option (list nat) :=
  if forallb (fun z => 0 <=? z) l then Some (map Z.to_nat l) else None.
Definition sample_gpu (active : skernel -> nat) (warp : nat) (n : nbh) (sample_mode : string)
  (P : pc -> option (list nat) -> Prop) : Prop :=
  exists mode, sample_modes (lower sample_mode) = Ok mode /\
    sampling_gpu active warp n mode (fun ps bs sel =>
      exists bs', to_nats bs = Some bs' /\
      exists l, (if Nat.eqb mode 0
                 then exists sel' l', to_nats sel = Some sel' /\ gather (gsidx (ngrid n)) sel' = Ok l' /\ l = Some l'
                 else l = None) /\
      exists q, sampled_cloud n ps bs' = Ok q /\ P q l).
