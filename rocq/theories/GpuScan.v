(** Model of the prefix sum on the GPU
    (custom_ops/tfg_custom_ops/find_neighbors/cc/kernels/scan_alg_kernels.cu.cc).
    [NUM_THREADS] is [2 ^ k] with [k = 8] in the code. Integers do not
    overflow. *)
From Coq Require Import List Arith ZArith Bool.
From Verif Require Import Cuda.
Import ListNotations.

Definition sum2 (vs : list Z) : Z := fold_right Z.add 0%Z vs.
Definition first (vs : list Z) : Z := hd 0%Z vs.

(** scan_alg_kernels.cu.cc:41-130, [scan_alg_gpu_kernel]. Buffer 0 is [pElems],
    buffer 1 [pOutAuxBlockCounter], buffer [2 + b] the shared [temp] of block
    [b]. Each statement is one action. *)
Section Scan.
  Variables (k n b : nat).
  Let T := 2 ^ k.
  Let temp (i : nat) : nat * nat := (2 + b, i).

  (** Lines 63-73. *)
  Definition scan_load (t cur : nat) : list (action (mem Z)) :=
    [ (if cur * 2 <? n then assign (temp (2 * t)) [(0, 2 * cur)] first
       else put (temp (2 * t)) 0%Z);
      (if cur * 2 + 1 <? n then assign (temp (2 * t + 1)) [(0, 2 * cur + 1)] first
       else put (temp (2 * t + 1)) 0%Z) ].
  Definition left_ix (offset t : nat) : nat := offset * (2 * t + 1) - 1.
  Definition right_ix (offset t : nat) : nat := offset * (2 * t + 2) - 1.
  (** Lines 76-88 at [offset = 2 ^ j], [d = 2 ^ (k - j)], and after the last
      level lines 91-93. *)
  Definition scan_up (j t cur : nat) : list (action (mem Z)) :=
    (if t <? 2 ^ (k - j)
     then [assign (temp (right_ix (2 ^ j) t)) [temp (right_ix (2 ^ j) t); temp (left_ix (2 ^ j) t)] sum2] else []) ++
    (if (j =? k) && (t =? 0) then [put (temp (T * 2 - 1)) 0%Z] else []).
  (** [t = temp[ai]; temp[ai] = temp[bi]; temp[bi] += t] as one action: no
      other thread uses these cells before the next barrier. *)
  Definition swap_add (x y : nat * nat) (m : mem Z) : option (mem Z) :=
    obind (get x m) (fun vx => obind (get y m) (fun vy => obind (put x vy m) (put y (vy + vx)%Z))).
  (** Lines 96-110 at [offset = 2 ^ j], [d = 2 ^ (k - j)]. *)
  Definition scan_down (j t cur : nat) : list (action (mem Z)) :=
    if t <? 2 ^ (k - j) then [swap_add (temp (left_ix (2 ^ j) t)) (temp (right_ix (2 ^ j) t))] else [].
  (** Lines 115-119. *)
  Definition scan_count (t cur : nat) : list (action (mem Z)) :=
    if t =? 0 then
      let e := Nat.min (2 * T - 1) (n - cur * 2 - 1) in
      [assign (1, cur / T) [temp e; (0, 2 * cur + e)] sum2]
    else [].
  (** Lines 124-127. *)
  Definition scan_write (t cur : nat) : list (action (mem Z)) :=
    (if cur * 2 <? n then [assign (0, 2 * cur) [temp (2 * t)] first] else []) ++
    (if cur * 2 + 1 <? n then [assign (0, 2 * cur + 1) [temp (2 * t + 1)] first] else []).
  (** The parts of one iteration, each followed by a barrier. *)
  Definition scan_phases : list (nat -> nat -> list (action (mem Z))) :=
    [scan_load] ++ map scan_up (seq 0 (S k)) ++ map scan_down (rev (seq 0 (S k))) ++ [scan_count; scan_write].
End Scan.

Definition scan_thread (k n blocks nproc b t : nat) : thread (mem Z) :=
  flat_map (fun cur => map (fun ph => ph t cur) (scan_phases k n b))
    (strided (t + 2 ^ k * b) (blocks * 2 ^ k) (nproc * 2 ^ k)) ++ [[]].
Definition scan_kernel (k n blocks nproc : nat) : list (block (mem Z)) :=
  map (fun b => map (scan_thread k n blocks nproc b) (seq 0 (2 ^ k))) (seq 0 blocks).

(** scan_alg_kernels.cu.cc:141-169, [propagate_down_counters_gpu_kernel].
    Buffer 0 is [pElems], buffer 1 [pBlockCounter], buffer [2 + b] the shared
    [blockOffset] of block [b]. There is one barrier per iteration, between
    setting and using [blockOffset], and none before the next iteration. *)
Section Propagate.
  Variables (cblock b t : nat).
  Definition prop_set (cur : nat) : list (action (mem Z)) :=
    if t =? 0 then [assign (2 + b, 0) [(1, cur / cblock)] first] else [].
  Definition prop_add (cur : nat) : action (mem Z) := assign (0, cur) [(0, cur); (2 + b, 0)] sum2.
  Fixpoint prop_phases (done : list (action (mem Z))) (curs : list nat) : thread (mem Z) :=
    match curs with
    | [] => [done]
    | cur :: rest => (done ++ prop_set cur) :: prop_phases [prop_add cur] rest
    end.
End Propagate.
Definition prop_kernel (cblock n blocks bsize : nat) : list (block (mem Z)) :=
  map (fun b => map (fun t => prop_phases cblock b t [] (strided (t + bsize * b + cblock) (blocks * bsize) n))
                    (seq 0 bsize)) (seq 0 blocks).

(** scan_alg_kernels.cu.cc:173-266, [mccnn::scan_alg]. [active] is [numMP] times
    the active blocks per multiprocessor of the scan kernel (also used for the
    second kernel, lines 245-247). The loop over the levels (lines 199-233) and
    the loop back (lines 236-256) are one recursion. The shared memory is not
    initialised. *)
Definition ceil_div (n d : nat) : nat := n / d + (if n mod d =? 0 then 0 else 1).
Definition scan_step (active k : nat) (elems : list Z) (P : list Z -> list Z -> Prop) : Prop :=
  let n := length elems in
  let exec := ceil_div n (2 ^ k * 2) in
  let blocks := Nat.min active exec in
  forall temps, length temps = blocks -> Forall (fun l => length l = 2 ^ k * 2) temps ->
    launch blocks (elems :: repeat 0%Z exec :: temps) (scan_kernel k n blocks exec)
      (fun m => match m with e :: c :: _ => P e c | _ => False end).
Definition prop_step (active warp k : nat) (elems counters : list Z) (P : list Z -> Prop) : Prop :=
  let n := length elems in
  if n <=? 2 ^ k * 2 then P elems
  else
    let blocks := num_blocks active (2 * warp) (n - 2 ^ k * 2) in
    forall offs, length offs = blocks -> Forall (fun l => length l = 1) offs ->
      launch blocks (elems :: counters :: offs) (prop_kernel (2 ^ k * 2) n blocks (2 * warp))
        (fun m => match m with e :: _ => P e | _ => False end).
Fixpoint scan_levels (fuel active warp k : nat) (elems : list Z) (P : list Z -> Z -> Prop) : Prop :=
  match fuel with
  | 0 => False
  | S f => scan_step active k elems (fun elems' counters =>
      if 1 <? length counters
      then scan_levels f active warp k counters (fun counters' total =>
             prop_step active warp k elems' counters' (fun out => P out total))
      else prop_step active warp k elems' counters (fun out => P out (nth 0 counters 0%Z)))
  end.
Definition scan_alg (active warp k : nat) (elems : list Z) (P : list Z -> Z -> Prop) : Prop :=
  scan_levels (S (length elems)) active warp k elems P.
