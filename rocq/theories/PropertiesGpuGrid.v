(** The CUDA grid operations (C39, C40).
    Generated by tools/gen_props.py from GpuGridProofs.v: statements only. *)
From Coq Require Import List Arith ZArith QArith Qround Lia Lqa Bool Permutation Sorted.
From Verif Require Import Tensor TensorFacts Spec PointCloud SpecCloud History PointCloudFacts QFacts
  CloudProofs Grid SpecGrid GridFacts GridProofs Cuda CudaFacts GpuGrid GpuGridFacts.
From Verif Require Import GpuGridProofs.
Import ListNotations.
Local Open Scope Z_scope.

(** C39. For every cloud and every schedule, the keys computed on the GPU are
    the row-major numbers of batch element and cell, where the cell is the one
    containing the point or, for a point on the far boundary of the grid, the
    last one; keys are in [[0, batch_size * number of cells)], and are equal
    exactly for points of the same element in the same cell. There is no limit
    of 32 bits. *)
Theorem C39_keys :
  forall active warp eps D rows ids B cs p,
    active <> 0%nat -> warp <> 0%nat -> (2 <= D <= 6)%nat -> ids <> [] ->
    cloud GPU eps D rows ids B p -> valid_sizes D cs -> (0 <= eps)%Q -> (eps <= flt_max)%Q ->
    mk_grid_gpu active warp eps p cs (fun g =>
      length (gnc g) = D /\ length (gkeys g) = length ids /\
      (forall d, (d < D)%nat -> cells_needed eps (all_dims D cs) rows ids d (nth d (gnc g) 0)) /\
      exists lo, (forall b, In b ids -> lower_corner D eps rows ids b (lo b)) /\
      let c i d := Z.min (cell (lo (nth i ids 0%nat)) (all_dims D cs) (nth i rows []) d) (nth d (gnc g) 0 - 1) in
      forall i, (i < length ids)%nat ->
        (forall d, (d < D)%nat -> 0 <= c i d) /\
        nth i (gkeys g) 0 = Z.of_nat (nth i ids 0%nat) * product (gnc g)
            + total (map (fun d => c i d * product (skipn (S d) (gnc g))) (seq 0 D)) /\
        0 <= nth i (gkeys g) 0 < Z.of_nat B * product (gnc g) /\
        forall j, (j < length ids)%nat ->
          (nth i (gkeys g) 0 = nth j (gkeys g) 0 <->
           nth i ids 0%nat = nth j ids 0%nat /\ forall d, (d < D)%nat -> c i d = c j d)).
Proof. exact C39_keys_proof. Qed.
Print Assumptions C39_keys.

Example C39_keys_ex :
  exists p, cloud GPU 0 2 [[0#1;2#1];[1#1;0#1];[3#2;1#1]] [0;0;0]%nat 1 p /\ valid_sizes 2 [1#1] /\
    mk_grid_gpu 1 32 0 p [1#1] (fun g => gnc g = [2; 2] /\ gkeys g = [1; 2; 3]).
Proof. exact C39_keys_ex_proof. Qed.

(** C39. If all points lie inside the grid and the number of cells over the
    batch fits into 32 bit, the grid built on the GPU is the grid built by
    the TensorFlow code. *)
Theorem C39_agree_partial :
  forall active warp eps D rows ids B cs p,
    active <> 0%nat -> warp <> 0%nat -> (2 <= D <= 6)%nat -> ids <> [] ->
    cloud GPU eps D rows ids B p -> valid_sizes D cs -> (0 <= eps)%Q ->
    fits eps D (all_dims D cs) rows ids ->
    exists g, mk_grid GPU eps p cs = Ok g /\
      (Z.of_nat B * product (gnc g) <= 2 ^ 31 ->
       mk_grid_gpu active warp eps p cs (fun g' => g' = g)).
Proof. exact C39_agree_partial_proof. Qed.
Print Assumptions C39_agree_partial.

Example C39_agree_partial_ex :
  exists p g, init (P2 3 ex_pts) (Some ex_bids) None None = Ok p /\ mk_grid GPU 0 p [4#3] = Ok g /\
    ~ boundary_case 3 (all_dims 3 [4#3]) ex_pts ex_bids /\
    gkeys g = [0; 2; 9; 2; 12] /\ mk_grid_gpu 2 32 0 p [4#3] (fun g' => g' = g).
Proof. exact C39_agree_partial_ex_proof. Qed.

(** C39, boundary. In the boundary case without effective margin the two
    implementations compute different keys. *)
Theorem C39_boundary_refuted :
  exists (p : pc) (g : grid) (rows : list point) (ids : list nat) (cs : list Q),
    cloud GPU 0 2 rows ids 1 p /\ valid_sizes 2 cs /\ mk_grid GPU 0 p cs = Ok g /\
    mk_grid_gpu 1 32 0 p cs (fun g' => gkeys g' <> gkeys g) /\
    ~ mk_grid_gpu 1 32 0 p cs (fun g' => gkeys g' = gkeys g).
Proof. exact C39_boundary_refuted_proof. Qed.
Print Assumptions C39_boundary_refuted.

(** C39, overflow. Beyond 32 bit the keys differ, whatever the margin. *)
Theorem C39_overflow_refuted :
  exists (p : pc) (g : grid) (rows : list point) (ids : list nat) (cs : list Q) (eps : Q),
    (0 < eps)%Q /\ cloud GPU eps 2 rows ids 2 p /\ valid_sizes 2 cs /\ mk_grid GPU eps p cs = Ok g /\
    mk_grid_gpu 1 32 eps p cs (fun g' => gkeys g' <> gkeys g) /\
    ~ mk_grid_gpu 1 32 eps p cs (fun g' => gkeys g' = gkeys g).
Proof. exact C39_overflow_refuted_proof. Qed.
Print Assumptions C39_overflow_refuted.

(** C39. Decoding a key gives the batch element and the cell, and the entry of
    the access structure found from the key is the one found from the cell. *)
Theorem C39_decode :
  forall (nc cs : list Z) (b : nat),
    (2 <= length nc)%nat -> length cs = length nc ->
    (forall d, (d < length nc)%nat -> 0 <= nth d cs 0 < nth d nc 0) ->
    let key := Z.of_nat b * product nc + total (map (fun d => nth d cs 0 * product (skipn (S d) nc)) (seq 0 (length nc))) in
    gpu_key nc cs b = key /\ gpu_cell_from_key nc key = (Z.of_nat b, cs) /\
    gpu_ds_of_key nc key = gpu_ds_of_cell nc (Z.of_nat b) cs.
Proof. exact C39_decode_proof. Qed.
Print Assumptions C39_decode.

Example C39_decode_ex :
  gpu_key [3;2;4] [2;1;3] 5 = 143 /\ gpu_cell_from_key [3;2;4] 143 = (5, [2;1;3]) /\ gpu_ds_of_key [3;2;4] 143 = 35.
Proof. exact C39_decode_ex_proof. Qed.

(** C39, empty cloud. Without points no block is launched and the operation
    ends the process. *)
Theorem C39_empty_refuted :
  forall active warp D a nc cells (P : list Z -> Prop), ~ compute_keys_gpu active warp D a nc cells [] [] P.
Proof. exact C39_empty_refuted_proof. Qed.
Print Assumptions C39_empty_refuted.

(** C40. For every descending list of valid keys, every device size and every
    schedule of the threads, the access structure built on the GPU is the one
    built by the TensorFlow code. *)
Theorem C40_schedule_independent :
  forall active warp dev keys nc B,
    active <> 0%nat -> warp <> 0%nat -> (2 <= length nc <= 6)%nat -> (0 < B)%nat -> keys <> [] ->
    Forall (fun n => 1 <= n) nc ->
    (forall j, (j < length keys)%nat -> 0 <= nth j keys 0 < Z.of_nat B * product nc) ->
    (forall j k, (j < k)%nat -> (k < length keys)%nat -> nth k keys 0 <= nth j keys 0) ->
    Z.of_nat B * product nc <= 2 ^ 31 -> Z.of_nat (length keys) < 2 ^ 31 - 1 ->
    exists ds, build_grid_ds dev keys nc B = Ok ds /\
      build_grid_ds_gpu active warp keys nc B (fun r => r = dsranges ds).
Proof. exact C40_schedule_independent_proof. Qed.
Print Assumptions C40_schedule_independent.

Example C40_schedule_independent_ex :
  exists ds, build_grid_ds CPU [12; 9; 2; 2; 0] [3; 2; 2] 2 = Ok ds /\
    build_grid_ds_gpu 4 32 [12; 9; 2; 2; 0] [3; 2; 2] 2 (fun r => r = dsranges ds) /\
    dsranges ds = [(4, 5); (2, 4); (0, 0); (0, 0); (1, 2); (0, 0); (0, 1); (0, 0); (0, 0); (0, 0); (0, 0); (0, 0)].
Proof. exact C40_schedule_independent_ex_proof. Qed.

(** C40. On the GPU there is no 32 bit limit: for the grid of every cloud and
    every schedule, the structure gives for every batch element and every pair
    of first cell coordinates the range of exactly the sorted points of that
    element with these (clamped) cell coordinates. *)
Theorem C40_access :
  forall active warp eps D rows ids B cs p,
    active <> 0%nat -> warp <> 0%nat -> (2 <= D <= 6)%nat -> ids <> [] ->
    cloud GPU eps D rows ids B p -> valid_sizes D cs -> (0 <= eps)%Q ->
    mk_grid_gpu active warp eps p cs (fun g =>
      get_DS_gpu active warp g (fun ds =>
        dsB ds = B /\ ds0 ds = nth 0 (gnc g) 0 /\ ds1 ds = nth 1 (gnc g) 0 /\
        exists lo, (forall b, In b ids -> lower_corner D eps rows ids b (lo b)) /\
        let c j d := Z.min (cell (lo (nth j (gsbids g) 0%nat)) (all_dims D cs) (nth j (gspts g) []) d) (nth d (gnc g) 0 - 1) in
        forall b x y, (b < B)%nat -> 0 <= x < nth 0 (gnc g) 0 -> 0 <= y < nth 1 (gnc g) 0 ->
          exists s e, ds_lookup ds b x y = Some (s, e) /\ 0 <= s <= e /\ e <= Z.of_nat (length ids) /\
            forall j, (j < length ids)%nat ->
              (s <= Z.of_nat j < e <-> nth j (gsbids g) 0%nat = b /\ c j 0%nat = x /\ c j 1%nat = y))).
Proof. exact C40_access_proof. Qed.
Print Assumptions C40_access.

Example C40_access_ex :
  exists p g ds, init (P2 3 ex_pts) (Some ex_bids) None None = Ok p /\ mk_grid GPU 0 p [4#3] = Ok g /\
    get_DS_gpu 2 32 g (fun ds' => ds' = ds) /\
    ds_lookup ds 0 0 1 = Some (2, 4) /\ ds_lookup ds 1 0 0 = Some (0, 1) /\ ds_lookup ds 0 2 1 = Some (0, 0).
Proof. exact C40_access_ex_proof. Qed.
