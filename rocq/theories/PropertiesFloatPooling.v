(** Local pooling entirely in float32 (C80).
    Generated by tools/gen_props.py from FloatPoolingProofs.v: statements only. *)
From Coq Require Import String List Arith ZArith NArith QArith Qabs Qround Qreals Reals Lia Lra Bool Permutation.
From Verif Require Import Tensor TensorFacts Spec SpecText TextFacts PointCloud SpecCloud History PointCloudFacts QFacts Grid SpecGrid GridFacts Neighbors SpecNeighbors NeighborFacts NeighborProofs Neighborhood NeighborhoodFacts
  SamplingFacts SamplingProofs Pdf SpecPdf PdfFacts PdfProofs RTensor RTensorFacts Layers SpecLayers LayerFacts LayerLink LayerProofs
  Float FloatFacts FloatGrid SpecFloat KeyGridFacts FloatGridFacts FloatProofs FloatNorm FloatSampling SpecFloatSampling FloatSampleProofs FloatNormProofs FloatAverageProofs
  FloatLayers SpecFloatLayers FloatPoolProofs FloatPooling SpecFloatPooling.
From Verif Require Import FloatPoolingProofs.
Import ListNotations.
Local Open Scope nat_scope.

(** C80, partial. Local pooling in float32: row i reduces the features of points
    of the element of center i, namely every point within the radius reduced by a
    fraction of (m + D + 12) / 2^22, and no point beyond the radius enlarged by a
    fraction of (D + 12) / 2^24. The average of these features is computed up to
    the rounding error, their maximum exactly; without points the result is 0
    respectively the lowest float. Partial: the hypotheses of C54_distances. *)
Theorem C80_pooling_partial :
  forall test eps D rows ids B p r g ceps crows cids CB cp m feats C F red return_sorted return_padded,
    cloud GPU eps D rows ids B p -> float32_batch D rows ids -> mk_grid32 GPU p [r] = Ok g -> 2 <= D <= 1024 ->
    (Z.of_nat (length ids) <= 2 ^ 23)%Z -> (Z.of_nat B * product (gnc g) <= 2 ^ 31)%Z ->
    (forall lo i d, i < length ids -> d < D -> lower_corner32 D rows ids (nth i ids 0) lo ->
       Qfloor (position32 (nth d lo 0%Q) (nth d (gcells g) 0%Q) (xc rows i d)) <> nth d (gnc g) 0%Z) ->
    cloud GPU ceps D crows cids CB cp -> cids <> [] -> Forall (fun b => b < B) cids ->
    is_float32 r -> (pow2 (-50) <= r)%Q -> (nth 0 (gnc g) 0 <= m)%Z -> (nth 1 (gnc g) 0 <= m)%Z -> (0 <= m <= 2 ^ 21)%Z ->
    compares32 D r test rows crows ->
    given feats p C F -> float32_features F -> averaging32 red ->
    let small := ((1 - inject_Z (m + Z.of_nat D + 12) * (1 # 4194304)) * r)%Q in
    let large := ((1 + inject_Z (Z.of_nat D + 12) * (1 # 16777216)) * r)%Q in
    exists found mx av,
      (forall i, i < length cids -> neighbors_between D small large rows ids crows cids i (found i)) /\
      local_pooling32 test red_max feats p cp (Some [r]) return_sorted return_padded
        = returned cp return_sorted return_padded C (table (length cids) C mx) /\
      local_pooling32 test red feats p cp (Some [r]) return_sorted return_padded
        = returned cp return_sorted return_padded C (table (length cids) C av) /\
      forall i c, i < length cids -> c < C ->
        let values := map (fun j => fval F j c) (found i) in
        if values then mx i c = (- Q2R flt_max)%R /\ av i c = 0%R
        else (Forall (fun v => (- Q2R flt_max <= v)%R) values -> is_max values (mx i c)) /\ average32 values (av i c).
Proof. exact C80_pooling_partial_proof. Qed.
Print Assumptions C80_pooling_partial.

Theorem C80_missed_refuted :
  exists rows ids p r crows cids cp feats F,
    cloud GPU 0 2 rows ids 1 p /\ float32_batch 2 rows ids /\ is_float32 r /\
    cloud GPU 0 2 crows cids 1 cp /\ float32_batch 2 crows cids /\ given feats p 1 F /\ float32_features F /\
    exists mx j, local_pooling32 (fun a b => norm_lt a b r) red_max feats p cp (Some [r]) false false = returned cp false false 1 (table (length cids) 1 mx) /\
      near 2 r rows ids crows cids j 0 /\ (mx 0%nat 0%nat < fval F j 0)%R.
Proof. exact C80_missed_refuted_proof. Qed.
Print Assumptions C80_missed_refuted.

Example C80_pooling_partial_ex :
  exists g, cloud GPU 0 2 ex75_rows [0; 0; 0] 1 (seg 2 ex75_rows [0; 0; 0] 1) /\ float32_batch 2 ex75_rows [0; 0; 0] /\
    mk_grid32 GPU (seg 2 ex75_rows [0; 0; 0] 1) [7%Q] = Ok g /\ gnc g = [1; 2]%Z /\
    (forall lo i d, i < 3 -> d < 2 -> lower_corner32 2 ex75_rows [0; 0; 0] (nth i [0; 0; 0] 0) lo ->
       Qfloor (position32 (nth d lo 0%Q) (nth d (gcells g) 0%Q) (xc ex75_rows i d)) <> nth d (gnc g) 0%Z) /\
    cloud GPU 0 2 ex80_centers [0; 0] 1 (seg 2 ex80_centers [0; 0] 1) /\ is_float32 7 /\
    compares32 2 7 (fun a b => norm_lt a b 7) ex75_rows ex80_centers /\
    given (Feat 2 (inr ex80_feats)) (seg 2 ex75_rows [0; 0; 0] 1) 2 ex80_feats /\ float32_features ex80_feats /\ averaging32 tail_red /\
    exists rg nbs, snd (find_neighbors32 GPU (fun a b => norm_lt a b 7) g (seg 2 ex80_centers [0; 0] 1) [7%Q]) = Ok (rg, nbs) /\ nbs = [(1, 0); (2, 0); (0, 1); (1, 1); (2, 1)].
Proof. exact C80_pooling_partial_ex_proof. Qed.

Example C80_missed_refuted_ex :
  near 2 (f32 (7 # 10)) ex54_rows ex54_ids [[ex54_mid; ex54_low]; [2 # 1; 1 # 2]]%Q [0; 0] 6 0 /\ fval ex80_F 6 0 = 1%R.
Proof. exact C80_missed_refuted_ex_proof. Qed.
