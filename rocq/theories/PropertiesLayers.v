(** Basis projection and pooling.
    Generated by tools/gen_props.py from LayerProofs.v: statements only. *)
From Coq Require Import String List Arith ZArith QArith Reals Qreals Lia Lra Bool Permutation.
From Verif Require Import Tensor TensorFacts Spec SpecText TextFacts PointCloud SpecCloud PointCloudFacts QFacts Grid SpecGrid GridFacts
  Neighbors SpecNeighbors NeighborFacts NeighborProofs Neighborhood NeighborhoodFacts NeighborhoodProofs
  Sampling SpecSampling SamplingFacts SamplingProofs Hierarchy SpecHierarchy HierarchyFacts Pdf SpecPdf PdfFacts PdfProofs
  RTensor RTensorFacts Layers SpecLayers LayerFacts LayerLink.
From Verif Require Import LayerProofs.
Import ListNotations.
Local Open Scope nat_scope.

(** C30. For any neighborhood object whose indices are in range, entry i, c, k
    of the projection is the sum over the rows m of the neighbor list with
    center i of the feature c of the neighbor times entry k of basis row m. *)
Theorem C30_projection :
  forall dev n N C K f b,
    length (norig n) = length (nnbs n) ->
    Forall (fun q => fst q < N) (norig n) -> Forall (fun q => snd q < length (pts (nsampled n))) (nnbs n) ->
    basis_proj dev (ttab [length (nnbs n); K] b) (ttab [N; C] f) n =
    Ok (ttab [length (pts (nsampled n)); C; K] (fun idx => match idx with
      | [i; c; k] => sum_over (filter (fun m => snd (nth m (nnbs n) (0, 0)) =? i) (seq 0 (length (nnbs n))))
                       (fun m => f [fst (nth m (norig n) (0%nat, 0%nat)); c] * b [m; k])%R
      | _ => 0%R end)).
Proof. exact C30_projection_proof. Qed.
Print Assumptions C30_projection.

Example C30_projection_ex :
  exists n, norig n = [(0,0);(1,1);(4,4)] /\ nnbs n = [(4,0);(5,1);(0,4)] /\ length (pts (nsampled n)) = 5 /\
    forall dev f b, exists t, basis_proj dev (ttab [3; 8] b) (ttab [6; 4] f) n = Ok t /\ tshape t = [5; 4; 8] /\
      tget t [4; 3; 7] = (f [4; 3]%nat * b [2; 7]%nat)%R /\ tget t [2; 3; 7] = 0%R.
Proof. exact C30_projection_ex_proof. Qed.

(** C30. For the neighborhood of a grid with given centers, and a basis whose
    rows belong to the rows of the neighbor list: sum over the points within
    the radius of the center; zero without neighbors. *)
Theorem C30_neighborhood_partial :
  forall dev eps D rows ids B cs g ceps crows cids CB cp radii max_neighbors n C K f basis,
    usable eps D rows ids B cs g -> cloud GPU ceps D crows cids CB cp ->
    cids <> [] -> Forall (fun b => b < B) cids -> radii_match D radii cs ->
    snd (mk_nbh (find_neighbors_tf GPU) g radii (Some cp) max_neighbors) = Ok n ->
    let r := nth 0 (all_dims D radii) 0%Q in
    exists t,
      basis_proj dev (ttab [length (norig n); K] (fun idx => match idx with
          | [m; k] => basis (nth m (norig n) (0, 0)) k | _ => 0%R end)) (ttab [length ids; C] f) n = Ok t /\
      tshape t = [length cids; C; K] /\
      forall i c k, i < length cids -> c < C -> k < K ->
        tget t [i; c; k] = sum_over (near_points D r rows ids crows cids i) (fun p => f [p; c] * basis (p, i) k)%R /\
        ((forall p, ~ near D r rows ids crows cids p i) -> tget t [i; c; k] = 0%R).
Proof. exact C30_neighborhood_partial_proof. Qed.
Print Assumptions C30_neighborhood_partial.

Example C30_neighborhood_partial_ex :
  exists g n, usable (1#1000) 2 exN_rows exN_ids 2 [1#1] g /\ radii_match 2 [1#1] [1#1] /\
    cloud GPU 0 2 exN_centers exN_cids 2 (seg 2 exN_centers exN_cids 2) /\ Forall (fun b => b < 2) exN_cids /\
    snd (mk_nbh (find_neighbors_tf GPU) g [1#1] (Some (seg 2 exN_centers exN_cids 2)) 0) = Ok n /\
    map (near_points 2 1 exN_rows exN_ids exN_centers exN_cids) (seq 0 5) = [[0];[1];[];[];[4]].
Proof. exact C30_neighborhood_partial_ex_proof. Qed.

(** C30. The projection is linear in the features and in the basis. *)
Theorem C30_bilinear :
  forall dev n N C K f f1 f2 b b1 b2 x y,
    length (norig n) = length (nnbs n) ->
    Forall (fun q => fst q < N) (norig n) -> Forall (fun q => snd q < length (pts (nsampled n))) (nnbs n) ->
    let proj := fun b f => basis_proj dev (ttab [length (nnbs n); K] b) (ttab [N; C] f) n in
    let combine := fun (g1 g2 : list nat -> R) idx => (x * g1 idx + y * g2 idx)%R in
    exists t t1 t2 s s1 s2,
      proj b (combine f1 f2) = Ok t /\ proj b f1 = Ok t1 /\ proj b f2 = Ok t2 /\
      proj (combine b1 b2) f = Ok s /\ proj b1 f = Ok s1 /\ proj b2 f = Ok s2 /\
      forall idx, in_shape [length (pts (nsampled n)); C; K] idx ->
        tget t idx = (x * tget t1 idx + y * tget t2 idx)%R /\
        tget s idx = (x * tget s1 idx + y * tget s2 idx)%R.
Proof. exact C30_bilinear_proof. Qed.
Print Assumptions C30_bilinear.

(** C30. The result does not depend on the order of the rows of the neighbor
    list, if the basis rows are ordered likewise. *)
Theorem C30_order :
  forall dev n n' s N C K f b b',
    length (norig n) = length (nnbs n) -> Permutation s (seq 0 (length (nnbs n))) ->
    Forall (fun q => fst q < N) (norig n) -> Forall (fun q => snd q < length (pts (nsampled n))) (nnbs n) ->
    nsampled n' = nsampled n ->
    norig n' = map (fun m => nth m (norig n) (0, 0)) s -> nnbs n' = map (fun m => nth m (nnbs n) (0, 0)) s ->
    (forall m k, m < length (nnbs n) -> k < K -> b' [m; k] = b [nth m s 0; k]) ->
    basis_proj dev (ttab [length (nnbs n'); K] b') (ttab [N; C] f) n' =
    basis_proj dev (ttab [length (nnbs n); K] b) (ttab [N; C] f) n.
Proof. exact C30_order_proof. Qed.
Print Assumptions C30_order.

Example C30_bilinear_ex :
  exists n, length (norig n) = length (nnbs n) /\ length (nnbs n) = 3 /\
    Forall (fun q => fst q < 6) (norig n) /\ Forall (fun q => snd q < length (pts (nsampled n))) (nnbs n).
Proof. exact C30_bilinear_ex_proof. Qed.

Example C30_order_ex :
  exists n n', norig n = [(0,0);(1,1);(4,4)] /\ norig n' = [(4,4);(0,0);(1,1)] /\ nsampled n' = nsampled n /\
    norig n' = map (fun m => nth m (norig n) (0, 0)) [2;0;1] /\ nnbs n' = map (fun m => nth m (nnbs n) (0, 0)) [2;0;1] /\
    Permutation [2;0;1] (seq 0 (length (nnbs n))).
Proof. exact C30_order_ex_proof. Qed.

(** C31, global pooling: row b holds the largest entry respectively the mean
    of each feature over the points of element b; for an element without
    points the lowest float respectively 0. With return_padded the rows are
    arranged in the batch shape. *)
Theorem C31_global :
  forall dev eps D rows ids B p feats C F, cloud GPU eps D rows ids B p -> given feats p C F ->
    let values := fun b c => map (fun j => fval F j c) (members ids b) in
    exists mx av,
      global_max_pooling dev feats p false = Ok mx /\ global_average_pooling dev feats p false = Ok av /\
      tshape mx = [B; C] /\ tshape av = [B; C] /\
      (forall b c, b < B -> c < C -> In b ids ->
         (Forall (fun v => (- Q2R flt_max <= v)%R) (values b c) -> is_max (values b c) (tget mx [b; c])) /\
         tget av [b; c] = mean (values b c)) /\
      (forall b c, b < B -> c < C -> ~ In b ids -> tget mx [b; c] = (- Q2R flt_max)%R /\ tget av [b; c] = 0%R) /\
      (forall sh, bshape p = Some sh -> nprod sh = B -> B <> 0 ->
         exists mx' av', global_max_pooling dev feats p true = Ok mx' /\ global_average_pooling dev feats p true = Ok av' /\
           tshape mx' = sh ++ [C] /\ tshape av' = sh ++ [C] /\
           forall idx c, in_shape sh idx -> c < C ->
             tget mx' (idx ++ [c]) = tget mx [row_major sh idx; c] /\ tget av' (idx ++ [c]) = tget av [row_major sh idx; c]).
Proof. exact C31_global_proof. Qed.
Print Assumptions C31_global.

(** C31. return_padded fails for a cloud whose batch shape was never set. *)
Theorem C31_padded_refuted :
  forall dev eps D rows ids B p feats C F, cloud GPU eps D rows ids B p -> given feats p C F -> bshape p = None ->
    global_max_pooling dev feats p true = Err ValueError /\ global_average_pooling dev feats p true = Err ValueError.
Proof. exact C31_padded_refuted_proof. Qed.
Print Assumptions C31_padded_refuted.

Example C31_global_ex :
  exists p, init (PN 1 (Padded [2;1] 2 [[1#1];[2#1];[3#1];[4#1]])) None None (Some (ITensor [2;1] [2;1])) = Ok p /\
    cloud GPU 0 1 [[1#1];[2#1];[3#1]] [0;0;1] 2 p /\ bshape p = Some [2;1] /\
    given (Feat 1 (inr [[5%R];[7%R];[4%R]])) p 1 [[5%R];[7%R];[4%R]] /\
    map (fun j => fval [[5%R];[7%R];[4%R]] j 0) (members [0;0;1] 0) = [5%R;7%R].
Proof. exact C31_global_ex_proof. Qed.

Example C31_padded_refuted_ex :
  exists p, init (P2 1 [[1#1];[2#1];[3#1]]) (Some [0;0;1]) None None = Ok p /\ bshape p = None /\
    cloud GPU 0 1 [[1#1];[2#1];[3#1]] [0;0;1] 2 p /\ given (Feat 1 (inr [[5%R];[7%R];[4%R]])) p 1 [[5%R];[7%R];[4%R]].
Proof. exact C31_padded_refuted_ex_proof. Qed.

(** C31, local pooling: row i holds the largest entry respectively the mean of
    each feature over the points within the radius of center i; without such
    points the lowest float respectively 0. *)
Theorem C31_local_partial :
  forall eps D r rows ids pin crows cids pout radii feats C F return_sorted return_padded,
    workable eps D r rows ids pin crows cids pout -> radii = [r] \/ radii = repeat r D -> given feats pin C F ->
    let search := find_neighbors_tf GPU in
    let values := fun i c => map (fun j => fval F j c) (near_points D r rows ids crows cids i) in
    exists mx av,
      max_pooling GPU eps search feats pin pout (Some radii) return_sorted return_padded
        = returned pout return_sorted return_padded C (table (length cids) C mx) /\
      average_pooling GPU eps search feats pin pout (Some radii) return_sorted return_padded
        = returned pout return_sorted return_padded C (table (length cids) C av) /\
      forall i c, i < length cids -> c < C ->
        if values i c then mx i c = (- Q2R flt_max)%R /\ av i c = 0%R
        else (Forall (fun v => (- Q2R flt_max <= v)%R) (values i c) -> is_max (values i c) (mx i c)) /\
             av i c = mean (values i c).
Proof. exact C31_local_partial_proof. Qed.
Print Assumptions C31_local_partial.

(** C31. A radius given as a plain number is rejected, although the
    documentation allows it. *)
Theorem C31_scalar_radius_refuted :
  forall dev eps search pin pout feats C F return_sorted return_padded, given feats pin C F ->
    max_pooling dev eps search feats pin pout None return_sorted return_padded = Err IndexError /\
    average_pooling dev eps search feats pin pout None return_sorted return_padded = Err IndexError.
Proof. exact C31_scalar_radius_refuted_proof. Qed.
Print Assumptions C31_scalar_radius_refuted.

Example C31_local_partial_ex :
  workable (1#1000) 2 1 exN_rows exN_ids (seg 2 exN_rows exN_ids 2) exN_centers exN_cids (seg 2 exN_centers exN_cids 2) /\
  given (Feat 2 (inr exN_F)) (seg 2 exN_rows exN_ids 2) 2 exN_F /\
  map (near_points 2 1 exN_rows exN_ids exN_centers exN_cids) (seq 0 5) = [[0];[1];[];[];[4]].
Proof. exact C31_local_partial_ex_proof. Qed.

Example C31_scalar_radius_refuted_ex :
  given (Feat 2 (inr exN_F)) (seg 2 exN_rows exN_ids 2) 2 exN_F /\
  max_pooling GPU (1#1000) (find_neighbors_tf GPU) (Feat 2 (inr exN_F)) (seg 2 exN_rows exN_ids 2) (seg 2 exN_centers exN_cids 2) None false false
    = Err IndexError.
Proof. exact C31_scalar_radius_refuted_ex_proof. Qed.
