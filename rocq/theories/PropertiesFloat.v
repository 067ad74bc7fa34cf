(** The grid and the search in float32 (C54).
    Generated by tools/gen_props.py from FloatProofs.v: statements only. *)
From Coq Require Import List Arith ZArith QArith Qround Qabs Qminmax Rdefinitions Qreals Lia Lqa Bool.
From Flocq Require Import Core.
From Verif Require Import Tensor TensorFacts Spec PointCloud SpecCloud History PointCloudFacts QFacts CloudProofs
  Grid SpecGrid GridFacts Neighbors SpecNeighbors NeighborFacts NeighborProofs Float FloatFacts FloatGrid SpecFloat
  KeyGridFacts FloatGridFacts.
From Verif Require Import FloatProofs.
Import ListNotations.
Local Open Scope Z_scope.

(** C54, the rounding. The rounding used in the model is rounding to nearest,
    ties to even, in the binary32 format (24 bit precision, smallest exponent
    -149) as the Flocq library defines it. *)
Theorem C54_binary32 : forall x : Q,
  Q2R (f32 x) = round radix2 (FLT_exp (-149) 24) ZnearestE (Q2R x).
Proof. exact C54_binary32_proof. Qed.
Print Assumptions C54_binary32.

Example C54_binary32_ex :
  f32 (1 # 10) = 13421773 # 134217728 /\ f32 (16777217 # 1) = 16777216 # 1 /\ f32 (16777219 # 1) = 16777220 # 1.
Proof. exact C54_binary32_ex_proof. Qed.

(** C54, the margin. Subtracting and adding the margin 1e-9 has an effect on
    every coordinate of magnitude below 1/32, and none on any coordinate of
    larger magnitude. *)
Theorem C54_margin : forall x : Q, is_float32 x ->
  ((Qabs x < 1 # 32)%Q -> (f32 (x - f32 (1 # 1000000000)) < x /\ x < f32 (x + f32 (1 # 1000000000)))%Q) /\
  ((1 # 32 < Qabs x)%Q -> (f32 (x - f32 (1 # 1000000000)) == x /\ f32 (x + f32 (1 # 1000000000)) == x)%Q).
Proof. exact C54_margin_proof. Qed.
Print Assumptions C54_margin.

Example C54_margin_ex :
  is_float32 (f32 (1 # 100)) /\ (Qabs (f32 (1 # 100)) < 1 # 32)%Q /\
  is_float32 (f32 (1 # 10)) /\ (1 # 32 < Qabs (f32 (1 # 10)))%Q.
Proof. exact C54_margin_ex_proof. Qed.

(** C54, cells. In a float32 grid the computed cell of every point lies
    between 0 and the number of cells. It is the number of cells, one beyond
    the last cell, only if the computed positions of the point and of the
    upper corner coincide and are that integer. *)
Theorem C54_cells :
  forall eps D rows ids B p cs g,
    cloud GPU eps D rows ids B p -> float32_batch D rows ids -> mk_grid32 GPU p cs = Ok g ->
    gcells g = all_dims D (map f32 cs) /\
    exists lo hi : nat -> list Q,
      (forall b, In b ids -> lower_corner32 D rows ids b (lo b) /\ upper_corner32 D rows ids b (hi b)) /\
      forall i d, (i < length ids)%nat -> (d < D)%nat ->
        let n := nth d (gnc g) 0 in
        let pos := position32 (nth d (lo (nth i ids 0%nat)) 0%Q) (nth d (gcells g) 0%Q) in
        0 <= Qfloor (pos (xc rows i d)) <= n /\
        (Qfloor (pos (xc rows i d)) = n ->
         (pos (xc rows i d) == pos (nth d (hi (nth i ids 0%nat)) 0%Q))%Q /\ (pos (xc rows i d) == inject_Z n)%Q).
Proof. exact C54_cells_proof. Qed.
Print Assumptions C54_cells.

(** C54, keys. If no point is assigned the cell beyond the last one, and all
    cells of the batch can be numbered in 32 bit, two points have the same key
    exactly if they belong to the same element and the same computed cell. *)
Theorem C54_keys_partial :
  forall eps D rows ids B p cs g,
    cloud GPU eps D rows ids B p -> float32_batch D rows ids -> mk_grid32 GPU p cs = Ok g ->
    Z.of_nat B * product (gnc g) <= 2 ^ 31 ->
    exists lo : nat -> list Q,
      (forall b, In b ids -> lower_corner32 D rows ids b (lo b)) /\
      let cell i d := Qfloor (position32 (nth d (lo (nth i ids 0%nat)) 0%Q) (nth d (gcells g) 0%Q) (xc rows i d))%Q in
      ((forall i d, (i < length ids)%nat -> (d < D)%nat -> cell i d <> nth d (gnc g) 0) ->
       forall i j, (i < length ids)%nat -> (j < length ids)%nat ->
         (nth i (gkeys g) 0 = nth j (gkeys g) 0 <->
          nth i ids 0%nat = nth j ids 0%nat /\ forall d, (d < D)%nat -> cell i d = cell j d)).
Proof. exact C54_keys_partial_proof. Qed.
Print Assumptions C54_keys_partial.

(** C54, keys. The box margin does not prevent the cell beyond the last one:
    two points of different computed cells have the same key. *)
Theorem C54_keys_refuted :
  exists rows ids p cs g i j d,
    cloud GPU 0 2 rows ids 1 p /\ float32_batch 2 rows ids /\ mk_grid32 GPU p cs = Ok g /\
    (i < length ids)%nat /\ (j < length ids)%nat /\ (d < 2)%nat /\
    nth i ids 0%nat = nth j ids 0%nat /\ nth i (gkeys g) 0 = nth j (gkeys g) 0 /\
    (forall lo, lower_corner32 2 rows ids 0 lo ->
       Qfloor (position32 (nth d lo 0) (nth d (gcells g) 0) (xc rows i d))%Q <>
       Qfloor (position32 (nth d lo 0) (nth d (gcells g) 0) (xc rows j d))%Q).
Proof. exact C54_keys_refuted_proof. Qed.
Print Assumptions C54_keys_refuted.

(** C54, search. [test p c] stands for the comparison of the computed distance
    of [p] and [c] with the radius, whatever it is. With cells as large as the
    radius in the first two dimensions and no point in the cell beyond the
    last one, the search returns no pair twice, only pairs of the same element
    that pass the test, and every such pair whose first two coordinates differ
    by at most the radius reduced by a fraction of (number of cells + 2) /
    2^22. *)
Theorem C54_search_partial :
  forall test eps D rows ids B p cs g ceps crows cids CB cp radii,
    cloud GPU eps D rows ids B p -> float32_batch D rows ids -> mk_grid32 GPU p cs = Ok g -> (2 <= D)%nat ->
    Z.of_nat (length ids) < 2 ^ 31 - 1 -> Z.of_nat B * product (gnc g) <= 2 ^ 31 ->
    (forall lo i d, (i < length ids)%nat -> (d < D)%nat -> lower_corner32 D rows ids (nth i ids 0%nat) lo ->
       Qfloor (position32 (nth d lo 0%Q) (nth d (gcells g) 0%Q) (xc rows i d)) <> nth d (gnc g) 0) ->
    cloud GPU ceps D crows cids CB cp -> cids <> [] -> Forall (fun b => (b < B)%nat) cids ->
    (forall d, (d < 2)%nat -> (nth d (all_dims D (map f32 radii)) 0 == nth d (gcells g) 0)%Q) ->
    (forall d, (d < 2)%nat -> (pow2 (-100) <= nth d (gcells g) 0)%Q) ->
    exists rg nbs, snd (find_neighbors32 GPU test g cp radii) = Ok (rg, nbs) /\
      delimits (rdata rg) nbs (length cids) /\ NoDup nbs /\
      (forall j i, In (j, i) nbs ->
         (j < length ids)%nat /\ (i < length cids)%nat /\ nth j (gsbids g) 0%nat = nth i cids 0%nat /\
         test (nth j (gspts g) []) (nth i crows []) = true) /\
      (forall j i, (j < length ids)%nat -> (i < length cids)%nat -> nth j (gsbids g) 0%nat = nth i cids 0%nat ->
         test (nth j (gspts g) []) (nth i crows []) = true ->
         (forall d, (d < 2)%nat ->
            (Qabs (xc (gspts g) j d - xc crows i d) <= safe_radius (nth d (gnc g) 0%Z) (nth d (gcells g) 0))%Q) ->
         In (j, i) nbs).
Proof. exact C54_search_partial_proof. Qed.
Print Assumptions C54_search_partial.

Example C54_cells_ex :
  exists g, cloud GPU 0 2 ex54_rows ex54_ids 1 ex54_cloud /\ float32_batch 2 ex54_rows ex54_ids /\
    mk_grid32 GPU ex54_cloud [7 # 10] = Ok g /\ gnc g = [4; 2] /\ gkeys g = [0; 1; 2; 3; 4; 5; 6; 7].
Proof. exact C54_cells_ex_proof. Qed.

Example C54_keys_partial_ex :
  exists g, mk_grid32 GPU ex54_cloud [7 # 10] = Ok g /\ Z.of_nat 1 * product (gnc g) <= 2 ^ 31 /\
    forall lo, lower_corner32 2 ex54_rows ex54_ids 0 lo -> forall i d, (i < 8)%nat -> (d < 2)%nat ->
      Qfloor (position32 (nth d lo 0%Q) (nth d (gcells g) 0%Q) (xc ex54_rows i d)) <> nth d (gnc g) 0.
Proof. exact C54_keys_partial_ex_proof. Qed.

Example C54_search_partial_ex :
  exists g rg nbs, mk_grid32 GPU ex54_cloud [7 # 10] = Ok g /\
    (forall d, (d < 2)%nat -> (nth d (all_dims 2 (map f32 [7 # 10])) 0 == nth d (gcells g) 0)%Q) /\
    (forall d, (d < 2)%nat -> (pow2 (-100) <= nth d (gcells g) 0)%Q) /\
    snd (find_neighbors32 GPU ex54_test g (seg 2 [[ex54_mid; ex54_low]; [2 # 1; 1 # 2]] [0;0]%nat 1) [7 # 10]) = Ok (rg, nbs) /\
    nbs = [(3,0);(5,0);(1,1);(2,1);(3,1);(5,1)]%nat /\
    (forall d, (d < 2)%nat ->
       (Qabs (xc (gspts g) 3 d - xc [[ex54_mid; ex54_low]; [2 # 1; 1 # 2]] 0 d) <= safe_radius (nth d (gnc g) 0%Z) (nth d (gcells g) 0))%Q).
Proof. exact C54_search_partial_ex_proof. Qed.

(** C54, search. With the exact distance as test, in a batch whose points all
    lie inside the grid, a point closer than the radius is not found: the
    rounded positions of the two points are two cells apart. *)
Theorem C54_search_refuted :
  exists rows ids p r g crows cids cp rg nbs j i,
    cloud GPU 0 2 rows ids 1 p /\ float32_batch 2 rows ids /\ is_float32 r /\ mk_grid32 GPU p [r] = Ok g /\
    (forall lo i d, (i < length ids)%nat -> (d < 2)%nat -> lower_corner32 2 rows ids (nth i ids 0%nat) lo ->
       Qfloor (position32 (nth d lo 0%Q) (nth d (gcells g) 0%Q) (xc rows i d)) <> nth d (gnc g) 0) /\
    cloud GPU 0 2 crows cids 1 cp /\ float32_batch 2 crows cids /\
    snd (find_neighbors32 GPU (fun a b => norm_lt a b r) g cp [r]) = Ok (rg, nbs) /\
    near 2 r (gspts g) (gsbids g) crows cids j i /\ ~ In (j, i) nbs.
Proof. exact C54_search_refuted_proof. Qed.
Print Assumptions C54_search_refuted.
