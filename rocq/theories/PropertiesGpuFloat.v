(** Keys of the CUDA operation in float32 (C72)
    Generated by tools/gen_props.py from GpuFloatProofs.v: statements only. *)
From Coq Require Import List Arith ZArith QArith Qround Qabs Lia Lqa Bool Permutation.
From Verif Require Import Tensor TensorFacts Spec PointCloud SpecCloud History PointCloudFacts QFacts CloudProofs
  Grid SpecGrid GridFacts GridProofs Cuda CudaFacts GpuGrid GpuGridFacts GpuGridProofs
  Neighbors NeighborFacts NeighborProofs Float FloatFacts FloatGrid SpecFloat KeyGridFacts FloatGridFacts FloatProofs GpuFloat SpecGpuFloat.
From Verif Require Import GpuFloatProofs.
Import ListNotations.
Local Open Scope Z_scope.

(** C72, keys. For every float32 cloud, device and schedule the cell of a point,
    as the CUDA operation computes it in float32, is one of the cells of the
    grid; the key numbers element and cell, lies in the range of the grid, and is
    the same exactly for points of the same element and cell. No point has a key
    of the cell beyond the last one (as with the fallback, C54). *)
Theorem C72_keys :
  forall fused active warp eps D rows ids B p cs,
    active <> 0%nat -> warp <> 0%nat -> (2 <= D <= 6)%nat -> ids <> [] ->
    cloud GPU eps D rows ids B p -> valid_sizes D (map f32 cs) ->
    mk_grid_gpu32 fused active warp p cs (fun g =>
      gcells g = all_dims D (map f32 cs) /\
      exists lo : nat -> list Q,
        (forall b, In b ids -> lower_corner32 D rows ids b (lo b)) /\
        let c i d := Z.min (Z.max (Qfloor (device_position32 fused (nth d (lo (nth i ids 0%nat)) 0%Q) (nth d (gcells g) 0%Q) (xc rows i d))) 0)
                           (nth d (gnc g) 0 - 1) in
        forall i, (i < length ids)%nat ->
          (forall d, (d < D)%nat -> 0 <= c i d < nth d (gnc g) 0) /\
          nth i (gkeys g) 0 = Z.of_nat (nth i ids 0%nat) * product (gnc g)
              + total (map (fun d => c i d * product (skipn (S d) (gnc g))) (seq 0 D)) /\
          0 <= nth i (gkeys g) 0 < Z.of_nat B * product (gnc g) /\
          forall j, (j < length ids)%nat ->
            (nth i (gkeys g) 0 = nth j (gkeys g) 0 <->
             nth i ids 0%nat = nth j ids 0%nat /\ forall d, (d < D)%nat -> c i d = c j d)).
Proof. exact C72_keys_proof. Qed.
Print Assumptions C72_keys.

(** C72, positions. The computed position of a point differs from the real one,
    [(x - lo) / c], by at most 2^-22 times the distances of the point and of the
    corner from the origin, counted in cells (and 2^-40). *)
Theorem C72_position : forall fused lo c x, (pow2 (-100) <= c)%Q -> (c <= pow2 100)%Q ->
  (Qabs (device_position32 fused lo c x - (x - lo) / c) <= (Qabs (x / c) + Qabs (lo / c)) / 4194304 + 1 / 1099511627776)%Q.
Proof. exact C72_position_proof. Qed.
Print Assumptions C72_position.

(** C72, search cells. Two points whose coordinates differ by at most the cell
    size, reduced by a fraction of (m + 1) / 2^20 where all coordinates are within
    [m] cells of the origin, have the same or adjacent cells, so that a search
    through the adjacent cells finds the one from the other. *)
Theorem C72_adjacent_partial : forall fused lo c x y n (m : Z), (pow2 (-100) <= c)%Q -> (c <= pow2 100)%Q ->
  (Qabs lo <= inject_Z m * c)%Q -> (Qabs x <= inject_Z m * c)%Q -> (Qabs y <= inject_Z m * c)%Q ->
  (Qabs (x - y) <= c * (1 - (inject_Z m + 1) / 1048576))%Q ->
  let cell z := Z.min (Z.max (Qfloor (device_position32 fused lo c z)) 0) (n - 1) in
  -1 <= cell x - cell y <= 1.
Proof. exact C72_adjacent_partial_proof. Qed.
Print Assumptions C72_adjacent_partial.

(** C72, agreement refuted. The grids that the fallback and the CUDA operation
    make of the same float32 cloud differ, although no point is in the cell beyond
    the last one, on every device and with either way of rounding. *)
Theorem C72_agree_refuted :
  exists rows ids p cs g,
    cloud GPU 0 2 rows ids 1 p /\ float32_batch 2 rows ids /\ valid_sizes 2 (map f32 cs) /\ mk_grid32 GPU p cs = Ok g /\
    (forall lo i d, (i < length ids)%nat -> (d < 2)%nat -> lower_corner32 2 rows ids (nth i ids 0%nat) lo ->
       Qfloor (position32 (nth d lo 0%Q) (nth d (gcells g) 0%Q) (xc rows i d)) < nth d (gnc g) 0) /\
    forall fused active warp, active <> 0%nat -> warp <> 0%nat ->
      mk_grid_gpu32 fused active warp p cs (fun g' => gnc g' = gnc g /\ gcells g' = gcells g /\ gkeys g' <> gkeys g).
Proof. exact C72_agree_refuted_proof. Qed.
Print Assumptions C72_agree_refuted.

(** C72, search cells refuted without the reduction of the radius: with two
    roundings, points whose distance is less than 4/5 of the cell size lie two
    cells apart. *)
Theorem C72_missed_refuted :
  exists rows ids p c,
    cloud GPU 0 2 rows ids 1 p /\ float32_batch 2 rows ids /\ is_float32 c /\ valid_sizes 2 [c] /\
    (1 < length ids)%nat /\ (2 < length ids)%nat /\
    (let x := xc rows 1 0 - xc rows 2 0 in let y := xc rows 1 1 - xc rows 2 1 in
     let r := (4 # 5) * c in x * x + y * y < r * r)%Q /\
    forall active warp, active <> 0%nat -> warp <> 0%nat ->
      mk_grid_gpu32 false active warp p [c] (fun g =>
        nth 2 (gkeys g) 0 / nth 1 (gnc g) 0 - nth 1 (gkeys g) 0 / nth 1 (gnc g) 0 = 2).
Proof. exact C72_missed_refuted_proof. Qed.
Print Assumptions C72_missed_refuted.

(** The cloud of the counterexamples and its keys. *)
Example C72_keys_ex :
  cloud GPU 0 2 ex72_rows ex72_ids 1 ex72_cloud /\ valid_sizes 2 (map f32 [165#128]) /\
  forall fused active warp, active <> 0%nat -> warp <> 0%nat ->
    mk_grid_gpu32 fused active warp ex72_cloud [165#128] (fun g => gnc g = [11; 2] /\ gkeys g = if fused then [0; 4; 6; 21] else [0; 4; 8; 21]).
Proof. exact C72_keys_ex_proof. Qed.

(** The position of the second point, about 3.1, is computed as 2.5. *)
Example C72_position_ex :
  (pow2 (-100) <= 165#128 /\ 165#128 <= pow2 100)%Q /\
  (device_position32 false (10813436#1) (165#128) (10813440#1) == 5#2)%Q /\
  ((10813440#1) - (10813436#1)) / (165#128) == 512#165.
Proof. exact C72_position_ex_proof. Qed.

(** Cells of size 1/10 and coordinates up to 100 cells from the origin. *)
Example C72_adjacent_partial_ex :
  let c := f32 (1 # 10) in
  (pow2 (-100) <= c)%Q /\ (c <= pow2 100)%Q /\
  (Qabs (f32 (92 # 10)) <= inject_Z 100 * c)%Q /\ (Qabs (f32 (95 # 10)) <= inject_Z 100 * c)%Q /\ (Qabs (f32 (959 # 100)) <= inject_Z 100 * c)%Q /\
  (Qabs (f32 (95 # 10) - f32 (959 # 100)) <= c * (1 - (inject_Z 100 + 1) / 1048576))%Q /\
  Qfloor (device_position32 false (f32 (92 # 10)) c (f32 (95 # 10))) = 3 /\
  Qfloor (device_position32 true (f32 (92 # 10)) c (f32 (959 # 100))) = 3.
Proof. exact C72_adjacent_partial_ex_proof. Qed.
