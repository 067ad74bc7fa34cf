(** The GPU prefix sum
    Generated by tools/gen_props.py from GpuScanProofs.v: statements only. *)
From Coq Require Import List Arith ZArith Lia Bool Permutation.
From Verif Require Import Cuda CudaFacts CudaExec MemFacts SpecGpu GpuScan GpuScanFacts GpuScanRuns.
From Verif Require Import GpuScanProofs.
Import ListNotations.

(** C42. For every array of at most [N + active * blockDim] entries, [N = 512]
    the entries handled by a block, and every schedule, the prefix sum
    operation replaces the entries by their exclusive prefix sums and returns
    the total. *)
Theorem C42_scan_partial :
  forall active warp k elems,
    active <> 0 -> warp <> 0 -> elems <> [] -> (exists q, 2 ^ k * 2 = q * (2 * warp)) ->
    length elems <= 2 ^ k * 2 + active * (2 * warp) ->
    scan_alg active warp k elems (fun out total => prefix_sums elems out /\ total = sum_of elems).
Proof. exact C42_scan_partial_proof. Qed.
Print Assumptions C42_scan_partial.

Example C42_scan_example :
  scan_alg 80 32 8 [3; 0; 5; 1]%Z (fun out total => out = [0; 3; 3; 8]%Z /\ total = 9%Z).
Proof. exact C42_scan_example_proof. Qed.

(** More than one level: 600 ones. *)
Example C42_scan_levels_example :
  scan_alg 80 32 8 (repeat 1%Z 600) (fun out total => out = map Z.of_nat (seq 0 600) /\ total = 600%Z).
Proof. exact C42_scan_levels_example_proof. Qed.

(** The full statement of C42 fails: with one active block of 64 threads and
    1088 entries equal to one, the second kernel adds a block offset that was
    already replaced by the next one. *)
Theorem C42_scan_race_refuted :
  ~ scan_alg 1 32 8 (repeat 1%Z 1088) (fun out total => prefix_sums (repeat 1%Z 1088) out /\ total = sum_of (repeat 1%Z 1088)).
Proof. exact C42_scan_race_refuted_proof. Qed.
Print Assumptions C42_scan_race_refuted.

(** An empty array is not accepted: the kernel is launched without blocks. *)
Theorem C42_scan_empty : forall active warp k (P : list Z -> Z -> Prop), ~ scan_alg active warp k [] P.
Proof. exact C42_scan_empty_proof. Qed.
Print Assumptions C42_scan_empty.

(** With one entry it completes. *)
Example C42_scan_empty_ex :
  ~ scan_alg 80 32 8 [] (fun _ _ => True) /\ scan_alg 80 32 8 [7%Z] (fun out total => out = [0%Z] /\ total = 7%Z).
Proof. exact C42_scan_empty_ex_proof. Qed.
