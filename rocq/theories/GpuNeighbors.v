(** Model of the CUDA neighbor search
    (custom_ops/tfg_custom_ops/find_neighbors) and of its Python wrapper. *)
From Coq Require Import List Arith ZArith NArith QArith Lia Bool.
From Verif Require Import Tensor PointCloud Grid Neighbors Cuda GpuGrid GpuScan.
Import ListNotations.
Local Open Scope Z_scope.

(** The kernels differ in the number of blocks that can be active at once. *)
Inductive kernel := KKeys | KDs | KRanges | KCount | KMin | KScan | KStore.

(** Read at an index computed with signed integers. *)
Definition rdz {A} (i : Z) (l : list A) : option A := if i <? 0 then None else rd (Z.to_nat i) l.

(** find_ranges_grid_ds_kernels.cu.cc:303-335 computeTotalNumOffsets with
    [pAxisOffset = 1]. [digits] is the inner loop over the dimensions, from the
    last one; in more than two dimensions the last offset is 0. *)
Fixpoint digits (k aux : nat) : list Z :=
  match k with
  | O => []
  | S k' => digits k' (aux / 3) ++ [Z.of_nat (aux mod 3) - 1]
  end.
Definition offset (D i : nat) : list Z :=
  digits (S (Nat.max (D - 2) 1)) i ++ (if Nat.eqb D 2 then [] else [0]).
Definition offsets (D : nat) : list (list Z) := map (offset D) (seq 0 (3 ^ S (Nat.max (D - 2) 1))).
(** The [i]-th group of [NUM_OFFSETS_X_COMPUTE_BLOCK] offsets
    (find_neighbors_ops.cpp:182-190). *)
Definition offset_groups (D : nat) : list (list (list Z)) :=
  map (fun i => firstn 9 (skipn (9 * i) (offsets D))) (seq 0 (length (offsets D) / 9)).

(** find_ranges_grid_ds_kernels.cu.cc:107-137: binary search in the keys
    [base + x .. base + y]; [up] tells to go on in the upper half. The two
    searches of the code run in one loop but do not influence each other. *)
Fixpoint bsearch (fuel : nat) (keys : list Z) (base : Z) (up : Z -> bool) (x y : Z) : option (Z * Z) :=
  if y - x <=? 1 then Some (x, y)
  else match fuel with
       | O => None
       | S f => let p := Z.quot (y + x) 2 in
                obind (rdz (p + base) keys) (fun k => if up k then bsearch f keys base up p y else bsearch f keys base up x p)
       end.

(** find_ranges_grid_ds_kernels.cu.cc:63-168 for more than two dimensions and
    199-233 for two: what one iteration writes, if it does. *)
Definition search_range (D : nat) (nc keys : list Z) (ds : list (Z * Z)) (off : list Z) (key : Z) : option (option (Z * Z)) :=
  let '(b, cell) := gpu_cell_from_key nc key in
  let c := map (fun q => fst q + snd q) (combine cell off) in
  let checked := if Nat.eqb D 2 then D else (D - 1)%nat in
  if negb (forallb (fun d => (0 <=? nth d c 0) && (nth d c 0 <? nth d nc 0)) (seq 0 checked)) then Some None
  else obind (rdz (gpu_ds_of_cell nc b c) ds) (fun r =>
    if Nat.eqb D 2 then Some (Some r)
    else
      let x := fst r in
      let size := snd r - fst r - 1 in
      if size <? 0 then Some None
      else
        let all := zprod nc in
        let aux := gpu_key nc c (Z.to_nat b) in
        let maxk := if Z.quot aux all =? Z.quot (aux + 1) all then aux + 1 else Z.quot aux all * all + all - 1 in
        let mink := if Z.quot aux all =? Z.quot (aux - 1) all then aux - 1 else Z.quot aux all * all in
        let hit k := (mink <=? k) && (k <=? maxk) in
        obind (bsearch (Z.to_nat size) keys x (fun k => maxk <? k) 0 size) (fun mn =>
        obind (bsearch (Z.to_nat size) keys x (fun k => mink <=? k) 0 size) (fun mx =>
        obind (rdz (fst mn + x) keys) (fun k1 => obind (rdz (snd mn + x) keys) (fun k2 =>
        obind (rdz (fst mx + x) keys) (fun l1 => obind (rdz (snd mx + x) keys) (fun l2 =>
          Some (Some (if hit k1 then fst mn + x else if hit k2 then snd mn + x else 0,
                      if hit l2 then snd mx + x + 1 else if hit l1 then fst mx + x + 1 else 0))))))))).

(** find_ranges_grid_ds_kernels.cu.cc:237-301 find_ranges_grid_ds_gpu: the
    ranges are set to zero and the kernel runs in blocks of two warps. *)
Definition find_ranges_body (D : nat) (nc keys : list Z) (ds : list (Z * Z)) (offs : list (list Z)) (skeys : list Z) (i : nat)
  : list (action (list (Z * Z))) :=
  [fun out =>
    obind (rd (i / length offs) skeys) (fun key => obind (rd (i mod length offs) offs) (fun off =>
    obind (search_range D nc keys ds off key) (fun o =>
      match o with None => Some out | Some r => wr i r out end)))].
Definition find_ranges_gpu (active warp D : nat) (nc keys : list Z) (ds : list (Z * Z)) (offs : list (list Z))
  (skeys : list Z) (P : list (Z * Z) -> Prop) : Prop :=
  let n := (length skeys * length offs)%nat in
  let blocks := num_blocks active (2 * warp) n in
  launch blocks (repeat (0, 0) n)
    (flat_kernel blocks (2 * warp) n (find_ranges_body D nc keys ds offs skeys)) P.

(** [length((sample - point) * invRadii) < 1], on squares. *)
Definition closer (D : nat) (invr s p : point) : bool :=
  Qltb (fold_right Qplus 0%Q (map (fun d => let x := ((coord s d - coord p d) * coord invr d)%Q in (x * x)%Q) (seq 0 D))) 1.

(** count_neighbors_kernels.cu.cc:62-90 and store_neighbors_kernels.cu.cc:
    73-91, 137-155: the points that iteration [i] finds; 16 threads share the
    work of one range ([NUM_THREADS_X_RANGE]), 9 ranges belong to one sample.
    [near] is the comparison of the distance with the radius. *)
Definition found (near : point -> point -> bool) (samples pts : list point) (ranges : list (Z * Z)) (nr i : nat) : option (list nat) :=
  obind (rd (i / (nr * 16)) samples) (fun s => obind (rd (i / 16) ranges) (fun r =>
    let start := fst r + Z.of_nat (i mod 16) in
    if snd r <=? start then Some []
    else if start <? 0 then None
    else
      let its := iterations (Z.to_nat (snd r)) (Z.to_nat start) 16 (Z.to_nat (snd r)) in
      if forallb (fun j => Nat.ltb j (length pts)) its
      then Some (filter (fun j => near s (nth j pts [])) its) else None)).

(** count_neighbors_kernels.cu.cc:42-102. Buffer 0 is [pOutNumNeighs], buffer
    [1 + b] the shared [localCounter] of block [b]: sample indices in the first
    half, counters in the second. A negative [offsetCounter] is a fault. In the
    third part [offsetCounter] is computed again, from a cell nobody has
    written in between, and the counter is read and added to [pOutNumNeighs]
    in one action: nobody writes it before the next barrier. *)
Section Count.
  Variables (bs b : nat).
  Definition count_init (t s : nat) : list (action (mem Z)) :=
    [put (S b, t) (Z.of_nat s); put (S b, (bs + t)%nat) 0].
  Definition count_slot (s : nat) (m : mem Z) : option (nat * nat) :=
    obind (get (S b, O) m) (fun v => if Z.of_nat s <? v then None else Some (S b, (bs + Z.to_nat (Z.of_nat s - v))%nat)).
  Definition count_bump (s : nat) (m : mem Z) : option (mem Z) :=
    obind (count_slot s m) (fun x => modify x (fun v => v + 1) m).
  Definition count_add (t s : nat) (m : mem Z) : option (mem Z) :=
    match t with
    | O => obind (get (S b, bs) m) (fun v => modify (O, s) (fun w => w + v) m)
    | S t' => obind (get (S b, t') m) (fun p =>
                if p =? Z.of_nat s then Some m
                else obind (count_slot s m) (fun x => obind (get x m) (fun v => modify (O, s) (fun w => w + v) m)))
    end.
  (** One iteration: three parts, each followed by a barrier. [fnd] gives the
      points found. *)
  Definition count_phases (per : nat) (fnd : nat -> option (list nat)) (t cur : nat) : list (list (action (mem Z))) :=
    let s := (cur / per)%nat in
    [ count_init t s;
      match fnd cur with None => [fun _ => None] | Some l => map (fun _ => count_bump s) l end;
      [count_add t s] ].
End Count.
Definition count_kernel (per : nat) (fnd : nat -> option (list nat)) (blocks bs n : nat) : list (block (mem Z)) :=
  map (fun b => map (fun t => flat_map (count_phases bs b per fnd t) (strided (t + bs * b) (blocks * bs) n) ++ [[]])
                    (seq 0 bs)) (seq 0 blocks).

(** count_neighbors_kernels.cu.cc:106-153. The shared memory is not
    initialised. *)
Definition count_neighbors_gpu (active warp : nat) (near : point -> point -> bool) (samples pts : list point) (nr : nat)
  (ranges : list (Z * Z)) (counts : list Z) (P : list Z -> Prop) : Prop :=
  let n := (length samples * nr * 16)%nat in
  let bs := (2 * warp)%nat in
  let blocks := num_blocks active bs n in
  forall temps, length temps = blocks -> Forall (fun l => length l = (2 * bs)%nat) temps ->
    launch blocks (counts :: temps)
      (count_kernel (nr * 16) (found near samples pts ranges nr) blocks bs n)
      (fun m => match m with c :: _ => P c | _ => False end).

(** elem_wise_min_kernels.cu.cc:38-90: blocks of four warps. *)
Definition elem_wise_min_gpu (active warp : nat) (k : Z) (vals : list Z) (P : list Z -> Prop) : Prop :=
  let n := length vals in
  let blocks := num_blocks active (4 * warp) n in
  launch blocks vals (flat_kernel blocks (4 * warp) n (fun i => [atomic i (fun v => Z.min v k)])) P.

(** store_neighbors_kernels.cu.cc:128-169. [sm_reg] holds the register
    [neighIndex] of each thread, [g] is the global index of the thread. *)
Record smem := SMem { sm_cnt : list Z; sm_reg : list Z; sm_out : list (nat * nat) }.
Definition st_alloc (g s : nat) (m : smem) : option smem :=
  obind (rd s (sm_cnt m)) (fun v => obind (wr s (v + 1) (sm_cnt m)) (fun c =>
    obind (wr g v (sm_reg m)) (fun r => Some (SMem c r (sm_out m))))).
Definition wrz {A} (i : Z) (v : A) (l : list A) : option (list A) := if i <? 0 then None else wr (Z.to_nat i) v l.
Definition st_store (g j s : nat) (m : smem) : option smem :=
  obind (rd g (sm_reg m)) (fun v => obind (wrz v (j, s) (sm_out m)) (fun o => Some (SMem (sm_cnt m) (sm_reg m) o))).
Definition store_body (per : nat) (fnd : nat -> option (list nat)) (g i : nat) : list (action smem) :=
  match fnd i with
  | None => [fun _ => None]
  | Some l => flat_map (fun j => [st_alloc g (i / per); st_store g j (i / per)]) l
  end.
(** The work of thread [g] depends on [g] through its registers. *)
Definition thread_kernel {M} (blocks bs n : nat) (body : nat -> nat -> list (action M)) : list (block M) :=
  map (fun b => map (fun t => flat_thread (blocks * bs) n (body (t + bs * b)%nat) (t + bs * b)) (seq 0 bs)) (seq 0 blocks).

(** rnd_utils.h:28-50, on 32 bit integers. [seed_to_float] returns an
    [unsigned int]: 1 if the float nearest to the seed is 2^32, else 0. *)
Definition w32 (x : N) : N := N.land x 4294967295.
Definition wang_hash (s : N) : N :=
  let s := N.lxor (N.lxor s 61) (N.shiftr s 16) in
  let s := w32 (s * 9) in
  let s := N.lxor s (N.shiftr s 4) in
  let s := w32 (s * 668265261) in
  N.lxor s (N.shiftr s 15).
Definition rand_xorshift (s : N) : N :=
  let s := N.lxor s (w32 (N.shiftl s 13)) in
  let s := N.lxor s (N.shiftr s 17) in
  N.lxor s (w32 (N.shiftl s 5)).
Definition seed_to_float (s : N) : Z := if (4294967168 <=? s)%N then 1 else 0.

(** store_neighbors_kernels.cu.cc:50-112. Registers of a thread: [curSeed],
    [neighIndex] and the index to write to, if any. [lm_all] is
    [pOutNumNeighsU]. Each of the two atomic additions, the read of
    [pOutNumNeighs] and the write of the row is an action of its own. *)
Record lregs := LRegs { lr_seed : N; lr_idx : Z; lr_slot : option Z }.
Record lmem := LMem { lm_aux : list Z; lm_cnt : list Z; lm_reg : list lregs; lm_out : list (nat * nat) }.
Definition ls_take (g s : nat) (m : lmem) : option lmem :=
  obind (rd s (lm_aux m)) (fun v => obind (wr s (v + 1) (lm_aux m)) (fun a =>
    obind (rd g (lm_reg m)) (fun r => obind (wr g (LRegs (lr_seed r) v (lr_slot r)) (lm_reg m)) (fun rs =>
      Some (LMem a (lm_cnt m) rs (lm_out m)))))).
Definition ls_choose (k : Z) (all : list Z) (g s : nat) (m : lmem) : option lmem :=
  obind (rd g (lm_reg m)) (fun r => obind (rd s (lm_cnt m)) (fun v =>
    if lr_idx r <? k then
      obind (wr s (v + 1) (lm_cnt m)) (fun c =>
      obind (wr g (LRegs (lr_seed r) (lr_idx r) (Some v)) (lm_reg m)) (fun rs => Some (LMem (lm_aux m) c rs (lm_out m))))
    else obind (rd s all) (fun u =>
      let s1 := rand_xorshift (lr_seed r) in
      let s2 := rand_xorshift s1 in
      let r' := if seed_to_float s1 * u <? k then LRegs s2 (lr_idx r) (Some (v - (seed_to_float s2 * k + 1)))
                else LRegs s1 (lr_idx r) None in
      obind (wr g r' (lm_reg m)) (fun rs => Some (LMem (lm_aux m) (lm_cnt m) rs (lm_out m)))))).
Definition ls_store (g j s : nat) (m : lmem) : option lmem :=
  obind (rd g (lm_reg m)) (fun r => match lr_slot r with
    | None => Some m
    | Some v => obind (wrz v (j, s) (lm_out m)) (fun o => Some (LMem (lm_aux m) (lm_cnt m) (lm_reg m) o))
    end).
Definition store_limited_body (k : Z) (all : list Z) (per : nat) (fnd : nat -> option (list nat)) (g i : nat)
  : list (action lmem) :=
  match fnd i with
  | None => [fun _ => None]
  | Some l => flat_map (fun j => [ls_take g (i / per); ls_choose k all g (i / per); ls_store g j (i / per)]) l
  end.

(** store_neighbors_kernels.cu.cc:173-270 store_neighbors. The auxiliary
    counters are set to zero in every call; the registers hold anything; the
    seed is the time. *)
Definition store_neighbors_gpu (active warp : nat) (time : N) (k : nat) (near : point -> point -> bool) (samples pts : list point)
  (nr : nat) (ranges : list (Z * Z)) (all cnt : list Z) (out : list (nat * nat))
  (P : list Z -> list (nat * nat) -> Prop) : Prop :=
  let n := (length samples * nr * 16)%nat in
  let bs := (2 * warp)%nat in
  let blocks := num_blocks active bs n in
  let fnd := found near samples pts ranges nr in
  if Nat.eqb k 0 then
    forall regs, length regs = (blocks * bs)%nat ->
    launch blocks (SMem cnt regs out)
      (thread_kernel blocks bs n (store_body (nr * 16) fnd))
      (fun m => P (sm_cnt m) (sm_out m))
  else
    forall regs, length regs = (blocks * bs)%nat ->
    (forall g r, nth_error regs g = Some r -> lr_seed r = wang_hash (w32 (time + N.of_nat g))) ->
    launch blocks (LMem (repeat 0 (length samples)) cnt regs out)
      (thread_kernel blocks bs n (store_limited_body (Z.of_nat k) all (nr * 16) fnd))
      (fun m => P (lm_cnt m) (lm_out m)).

(** find_neighbors_ops.cpp:179-202: first pass over the groups of offsets. *)
Section Op.
  Variables (active : kernel -> nat) (warp D : nat) (time : N).
  Variables (near : point -> point -> bool) (samples pts : list point) (keys nc : list Z) (ds : list (Z * Z)) (skeys : list Z).
  Fixpoint count_pass (groups : list (list (list Z))) (ranges : list (Z * Z)) (counts : list Z)
    (P : list (Z * Z) -> list Z -> Prop) : Prop :=
    match groups with
    | [] => P ranges counts
    | offs :: rest =>
      find_ranges_gpu (active KRanges) warp D nc keys ds offs skeys (fun rg =>
      count_neighbors_gpu (active KCount) warp near samples pts 9 rg counts (fun c =>
      count_pass rest rg c P))
    end.
  (** find_neighbors_ops.cpp:225-246: second pass; the ranges are computed
      again if there is more than one group. *)
  Fixpoint store_pass (again : bool) (k : nat) (all : list Z) (groups : list (list (list Z))) (ranges : list (Z * Z))
    (cnt : list Z) (out : list (nat * nat)) (P : list Z -> list (nat * nat) -> Prop) : Prop :=
    match groups with
    | [] => P cnt out
    | offs :: rest =>
      let store rg := store_neighbors_gpu (active KStore) warp time k near samples pts 9 rg all cnt out
                        (fun c o => store_pass again k all rest rg c o P) in
      if again then find_ranges_gpu (active KRanges) warp D nc keys ds offs skeys store else store ranges
    end.
  (** find_neighbors_ops.cpp:179-250: the two passes, from the keys of the
      samples. [k] is [max_neighs]. *)
  Definition search_op (k : nat) (P : list Z -> list (nat * nat) -> Prop) : Prop :=
    let groups := offset_groups D in
    count_pass groups [] (repeat 0 (length samples)) (fun ranges counts =>
    let scan_and_store c :=
      scan_alg (active KScan) warp 8 c (fun starts total =>
      store_pass (Nat.ltb 1 (length groups)) k counts groups ranges starts (repeat (0, 0)%nat (Z.to_nat total)) P) in
    if Nat.eqb k 0 then scan_and_store counts
    else elem_wise_min_gpu (active KMin) warp (Z.of_nat k) counts scan_and_store).
End Op.

(** find_neighbors_ops.cpp:80-250. [k] is [max_neighs]. A negative number of
    neighbors is not considered. *)
Definition find_neighbors_op (active : kernel -> nat) (warp D : nat) (time : N) (samples : list point) (sids : list nat)
  (pts : list point) (keys : list Z) (ds : list (Z * Z)) (nc : list Z) (sl : list point) (inv invr : point) (k : nat)
  (P : list Z -> list (nat * nat) -> Prop) : Prop :=
  supported D /\ length nc = D /\ Forall (fun p => length p = D) pts /\ Forall (fun lo => length lo = D) sl /\
  length inv = D /\ length invr = D /\ length sids = length samples /\ length keys = length pts /\
  compute_keys_op (active KKeys) warp D samples sids sl nc inv (fun skeys =>
    search_op active warp D time (closer D invr) samples pts keys nc ds skeys k P).

(** custom_ops_wrapper.py:70-105 find_neighbors, with [cast_to_num_dims] of the
    caller (Neighborhood.py:82, 231). *)
Definition find_neighbors_gpu (active : kernel -> nat) (warp : nat) (time : N) (g : grid) (centers : pc) (radii : list Q) (k : nat)
  (P : list Z -> list (nat * nat) -> Prop) : Prop :=
  let D := dim (gcloud g) in
  get_DS_gpu (active KDs) warp g (fun ds =>
    find_neighbors_op active warp (dim centers) time (pts centers) (bids centers) (gspts g) (gskeys g) (dsranges ds) (gnc g)
      (map (fun lo => map (fun d => (coord lo d / coord (gcells g) d)%Q) (seq 0 D)) (amin (gbox g)))
      (map Qinv (gcells g)) (map Qinv (bcast D radii)) k P).
