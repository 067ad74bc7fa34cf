(** The execution model of the CUDA kernels (custom_ops/tfg_custom_ops).

    A kernel runs on a grid of blocks of threads. A thread performs a list of
    actions on the memory of the device; [__syncthreads()] splits this list
    into phases: no thread of a block starts its next phase before every thread
    of the block has finished the current one or has left the kernel. Apart
    from that, the actions of all threads of all blocks are interleaved
    arbitrarily. An action is one access to a shared or global buffer, or
    several accesses where the comment of the kernel says so. An access outside
    a buffer is a fault. Kernels launched on one stream, memset and memcpy run
    one after the other.

    Not modelled: caches and store reordering inside one thread's own view
    (the model is sequentially consistent), warps executing in lock step (a
    restriction of the interleavings), overflow of 32 and 64 bit integers. *)
From Coq Require Import List Arith Lia Bool.
Import ListNotations.

(** Buffers. *)
Fixpoint wr {A} (i : nat) (v : A) (l : list A) : option (list A) :=
  match l, i with
  | [], _ => None
  | _ :: r, 0 => Some (v :: r)
  | a :: r, S j => option_map (cons a) (wr j v r)
  end.
Definition rd {A} (i : nat) (l : list A) : option A := nth_error l i.
Definition obind {A B} (o : option A) (f : A -> option B) : option B :=
  match o with Some a => f a | None => None end.
(** Read, modify and write of one entry in one go: an atomic operation, or a
    write to one component of an entry. *)
Definition atomic {A} (i : nat) (g : A -> A) (l : list A) : option (list A) :=
  obind (rd i l) (fun e => wr i (g e) l).
(** Replaces entry [i] if there is one. *)
Definition upd {A} (i : nat) (v : A) (l : list A) : list A :=
  match wr i v l with Some r => r | None => l end.

Notation action M := (M -> option M) (only parsing).
(** What a thread still has to do: its current phase and the later ones. *)
Notation thread M := (list (list (action M))) (only parsing).
Notation block M := (list (thread M)) (only parsing).
Notation state M := (M * list (block M))%type (only parsing).

Section Machine.
  Context {M : Type}.

  (** A thread waits at a barrier if its current phase is done and there is a
      further one; it has left the kernel if there is nothing more. *)
  Definition waiting (t : thread M) : bool := match t with [] :: _ :: _ => true | _ => false end.
  Definition exited (t : thread M) : bool := match t with [] | [[]] => true | _ => false end.
  Definition release (t : thread M) : thread M := match t with [] :: (_ :: _) as r => tl t | _ => t end.

  Inductive step : state M -> state M -> Prop :=
  | step_act m bs b blk t a ph rest m' :
      nth_error bs b = Some blk -> nth_error blk t = Some ((a :: ph) :: rest) -> a m = Some m' ->
      step (m, bs) (m', upd b (upd t (ph :: rest) blk) bs)
  | step_sync m bs b blk :
      nth_error bs b = Some blk -> Forall (fun t => waiting t || exited t = true) blk ->
      Exists (fun t => waiting t = true) blk ->
      step (m, bs) (m, upd b (map release blk) bs).

  Definition faulty (s : state M) : Prop :=
    exists blk a ph rest, In blk (snd s) /\ In ((a :: ph) :: rest) blk /\ a (fst s) = None.
  Definition finished (s : state M) : Prop :=
    Forall (Forall (fun t => exited t = true)) (snd s).

  (** Every way to run the kernel from [s] ends, without a fault, in a memory
      that satisfies [P]. *)
  Inductive every_run (P : M -> Prop) : state M -> Prop :=
  | every_run_intro s :
      ~ faulty s -> (finished s -> P (fst s)) -> (forall s', step s s' -> every_run P s') ->
      every_run P s.

  (** Some way to run the kernel ends in [m]. *)
  Inductive some_run : state M -> M -> Prop :=
  | some_run_end s : finished s -> some_run s (fst s)
  | some_run_step s s' m : step s s' -> some_run s' m -> some_run s m.
  (** Some way to run the kernel leads to a fault. *)
  Inductive some_fault : state M -> Prop :=
  | some_fault_now s : faulty s -> some_fault s
  | some_fault_step s s' : step s s' -> some_fault s' -> some_fault s.
End Machine.

(** [for (cur = init; cur < n; cur += stride)]. *)
Fixpoint iterations (fuel cur stride n : nat) : list nat :=
  match fuel with
  | 0 => []
  | S f => if cur <? n then cur :: iterations f (cur + stride) stride n else []
  end.
Definition strided (init stride n : nat) : list nat := iterations n init stride n.

(** Number of blocks: enough for the work, at most as many as are active on
    the device at once ([numMP] times the blocks per multiprocessor), as in
    compute_keys_kernels.cu.cc:89-101 and all other kernels. A launch of no
    block is an error; the error handler ends the process
    (tf_gpu_device.cpp:90-101). *)
Definition num_blocks (active block_size work : nat) : nat :=
  Nat.min active (work / block_size + (if work mod block_size =? 0 then 0 else 1)).

(** A kernel without barriers in which thread [g] of [total] threads performs
    [body i] for [i = g, g + total, ...]. *)
Definition flat_thread {M} (total n : nat) (body : nat -> list (action M)) (g : nat) : thread M :=
  [flat_map body (strided g total n)].
Definition flat_kernel {M} (blocks block_size n : nat) (body : nat -> list (action M)) : list (block M) :=
  map (fun b => map (fun t => flat_thread (blocks * block_size) n body (t + block_size * b))
                    (seq 0 block_size)) (seq 0 blocks).

(** A launch: no block at all ends the process, which is not a result. *)
Definition launch {M} (blocks : nat) (m : M) (k : list (block M)) (P : M -> Prop) : Prop :=
  blocks <> 0 /\ every_run P (m, k).

(** Memory made of several buffers; a cell is given by buffer and index. *)
Notation mem V := (list (list V)) (only parsing).
Definition get {V} (x : nat * nat) (m : mem V) : option V := obind (nth_error m (fst x)) (rd (snd x)).
Definition put {V} (x : nat * nat) (v : V) (m : mem V) : option (mem V) :=
  obind (nth_error m (fst x)) (fun l => obind (wr (snd x) v l) (fun l' => wr (fst x) l' m)).
(** Read, modify and write of one cell in one go. *)
Definition modify {V} (x : nat * nat) (g : V -> V) (m : mem V) : option (mem V) :=
  obind (get x m) (fun v => put x (g v) m).
(** [x = f(y1, ..., yk)]: reads cells, writes one. *)
Fixpoint gets {V} (l : list (nat * nat)) (m : mem V) : option (list V) :=
  match l with
  | [] => Some []
  | x :: r => obind (get x m) (fun v => option_map (cons v) (gets r m))
  end.
Definition assign {V} (x : nat * nat) (ys : list (nat * nat)) (f : list V -> V) (m : mem V) : option (mem V) :=
  obind (gets ys m) (fun vs => put x (f vs) m).
