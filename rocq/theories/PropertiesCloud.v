(** Properties of the point cloud class (C01-C10).
    Generated by tools/gen_props.py from CloudProofs.v: statements only. *)
From Coq Require Import List Arith ZArith QArith Qminmax Lia Lqa Bool Permutation Sorted.
From Verif Require Import Tensor TensorFacts Spec PointCloud SpecCloud History PointCloudFacts QFacts.
From Verif Require Import CloudProofs.
Import ListNotations.
Local Open Scope nat_scope.

(** C01. Padded construction followed by get_points() gives back the valid
    rows at the same positions and zeros elsewhere, in the same shape,
    whatever [batch_ids], [batch_size] and [max_num_points] are passed. *)
Theorem C01_padded_round_trip :
  forall (D : nat) (shape : list nat) (V : nat) (rows : list point) (sizes : list nat)
         (ids : option (list nat)) (bs m : option nat),
    length rows = nprod shape * V -> length sizes = nprod shape ->
    Forall (fun n => n <= V) sizes -> bs = None \/ bs = Some (nprod shape) ->
    exists p out,
      init (PN D (Padded shape V rows)) ids bs (Some (ITensor shape sizes)) = Ok p /\
      snd (get_points_all p m) = Ok out /\
      pshape out = shape /\ pV out = V /\ length (prows out) = length rows /\
      forall b j, b < nprod shape -> j < V ->
        nth (b * V + j) (prows out) [] =
        if j <? nth b sizes 0 then nth (b * V + j) rows [] else repeat 0%Q D.
Proof. exact C01_padded_round_trip_proof. Qed.
Print Assumptions C01_padded_round_trip.

Example C01_padded_round_trip_ex :
  exists p out,
    init (PN 1 (Padded [2] 3 [[1#1];[2#1];[3#1];[4#1];[5#1];[6#1]]))
         None None (Some (ITensor [2] [2;1])) = Ok p /\
    snd (get_points_all p None) = Ok out /\
    prows out = [[1#1];[2#1];[0#1];[4#1];[0#1];[0#1]].
Proof. exact C01_padded_round_trip_ex_proof. Qed.

(** C02. Any two consistent descriptions of the same batch give clouds that
    agree in points, batch ids, batch size, dimension, sizes, and padded
    retrieval of a common width. *)
Theorem C02_constructions_agree :
  forall pa1 ia1 bs1 sz1 pa2 ia2 bs2 sz2 D rows ids B,
    describes pa1 ia1 bs1 sz1 D rows ids B ->
    describes pa2 ia2 bs2 sz2 D rows ids B ->
    exists p1 p2,
      init pa1 ia1 bs1 sz1 = Ok p1 /\ init pa2 ia2 bs2 sz2 = Ok p2 /\
      pts p1 = pts p2 /\ bids p1 = bids p2 /\ bsize p1 = bsize p2 /\ dim p1 = dim p2 /\
      sidx p1 = sidx p2 /\
      (forall id, get_points_id p1 (IdInt id) = get_points_id p2 (IdInt id)) /\
      (exists t1 t2, snd (get_sizes p1) = Ok t1 /\ snd (get_sizes p2) = Ok t2 /\ ivals t1 = ivals t2) /\
      (forall m1 m2 o1 o2,
        snd (get_points_all p1 m1) = Ok o1 -> snd (get_points_all p2 m2) = Ok o2 ->
        pV o1 = pV o2 -> prows o1 = prows o2).
Proof. exact C02_constructions_agree_proof. Qed.
Print Assumptions C02_constructions_agree.

Example C02_constructions_agree_ex :
  let rows := [[1#1];[2#1];[3#1]] in
  describes (PN 1 (Padded [2;1] 2 [[1#1];[2#1];[3#1];[9#1]])) None None (Some (ITensor [2;1] [2;1]))
            1 rows [0;0;1] 2 /\
  describes (P2 1 rows) None None (Some (ITensor [2] [2;1])) 1 rows [0;0;1] 2 /\
  describes (P2 1 rows) (Some [0;0;1]) None None 1 rows [0;0;1] 2.
Proof. exact C02_constructions_agree_ex_proof. Qed.

(** C03. Points given in any batch order: the padded retrieval holds, per
    element, its points in original order followed by zeros; and the elements
    together are the given points. *)
Theorem C03_unsorted_round_trip :
  forall (D B : nat) (rows : list point) (ids : list nat) (bs m : option nat),
    length rows = length ids -> Forall (fun b => b < B) ids -> all_nonempty B ids ->
    bs = Some B \/ bs = None /\ ids <> [] ->
    (forall v, m = Some v -> Forall (fun n => n <= v) (true_sizes B ids)) ->
    Permutation (concat (map (fun b => element b rows ids) (seq 0 B))) rows /\
    exists p out,
      init (P2 D rows) (Some ids) bs None = Ok p /\
      snd (get_points_all p m) = Ok out /\
      pshape out = [B] /\
      pV out = match m with Some v => v | None => list_max (true_sizes B ids) end /\
      prows out = concat (map (fun b => zero_padded (repeat 0%Q D) (pV out) (element b rows ids)) (seq 0 B)).
Proof. exact C03_unsorted_round_trip_proof. Qed.
Print Assumptions C03_unsorted_round_trip.

Example C03_unsorted_round_trip_ex :
  exists p out,
    init (P2 1 [[1#1];[2#1];[3#1];[4#1]]) (Some [1;0;1;1]) None None = Ok p /\
    snd (get_points_all p None) = Ok out /\
    pshape out = [2] /\ prows out = [[2#1];[0#1];[0#1];[1#1];[3#1];[4#1]].
Proof. exact C03_unsorted_round_trip_ex_proof. Qed.

(** C03, other branch: a requested width below the largest element is an error. *)
Theorem C03_too_narrow :
  forall (D B : nat) (rows : list point) (ids : list nat) (v : nat),
    length rows = length ids -> Forall (fun b => b < B) ids -> all_nonempty B ids ->
    (exists b, b < B /\ v < count_occ Nat.eq_dec ids b) ->
    exists p, init (P2 D rows) (Some ids) (Some B) None = Ok p /\
              snd (get_points_all p (Some v)) = Err InvalidArgument.
Proof. exact C03_too_narrow_proof. Qed.
Print Assumptions C03_too_narrow.

Example C03_too_narrow_ex :
  Forall (fun b => b < 2) [1;0;1] /\ all_nonempty 2 [1;0;1] /\
  exists b, b < 2 /\ 1 < count_occ Nat.eq_dec [1;0;1] b.
Proof. exact C03_too_narrow_ex_proof. Qed.

(** C04, the part that holds: when no element is empty get_sizes() returns
    the number of points of every element; the entries sum to the number of
    points. *)
Theorem C04_sizes_partial :
  forall (D B : nat) (rows : list point) (ids : list nat),
    length rows = length ids -> Forall (fun b => b < B) ids -> all_nonempty B ids ->
    exists p, init (P2 D rows) (Some ids) (Some B) None = Ok p /\
      snd (get_sizes p) = Ok (ITensor [B] (map (fun b => count_occ Nat.eq_dec ids b) (seq 0 B))) /\
      sum (map (fun b => count_occ Nat.eq_dec ids b) (seq 0 B)) = length rows.
Proof. exact C04_sizes_partial_proof. Qed.
Print Assumptions C04_sizes_partial.

Example C04_sizes_partial_ex :
  Forall (fun b => b < 3) [2;0;1;2] /\ all_nonempty 3 [2;0;1;2].
Proof. exact C04_sizes_partial_ex_proof. Qed.

(** C04, what the code computes in general: the sizes of the non-empty
    elements only. It is correct exactly when no element is empty. *)
Theorem C04_sizes_exact :
  forall (D B : nat) (rows : list point) (ids : list nat),
    length rows = length ids -> Forall (fun b => b < B) ids ->
    exists p t, init (P2 D rows) (Some ids) (Some B) None = Ok p /\
      snd (get_sizes p) = Ok t /\
      ivals t = filter (fun n => negb (n =? 0)) (map (fun b => count_occ Nat.eq_dec ids b) (seq 0 B)) /\
      (ivals t = map (fun b => count_occ Nat.eq_dec ids b) (seq 0 B) <-> all_nonempty B ids).
Proof. exact C04_sizes_exact_proof. Qed.
Print Assumptions C04_sizes_exact.

Example C04_sizes_exact_ex :
  Forall (fun b => b < 3) [2;0;2] /\ ~ all_nonempty 3 [2;0;2].
Proof. exact C04_sizes_exact_ex_proof. Qed.

(** C04 refuted: with an empty element in the batch get_sizes() drops it. *)
Theorem C04_sizes_refuted :
  exists (D B : nat) (rows : list point) (ids : list nat) p t,
    length rows = length ids /\ Forall (fun b => b < B) ids /\
    init (P2 D rows) (Some ids) (Some B) None = Ok p /\
    snd (get_sizes p) = Ok t /\
    length (ivals t) <> B /\ ivals t <> map (fun b => count_occ Nat.eq_dec ids b) (seq 0 B).
Proof. exact C04_sizes_refuted_proof. Qed.
Print Assumptions C04_sizes_refuted.

(** C04 consequence: with a batch shape set, such a cloud cannot report its
    sizes or be converted to padded form at all. *)
Theorem C04_sizes_shape_refuted :
  exists (D B : nat) (rows : list point) (ids : list nat) p p',
    init (P2 D rows) (Some ids) (Some B) None = Ok p /\
    set_batch_shape p (Some [B]) = (p', Ok tt) /\
    snd (get_sizes p') = Err InvalidArgument /\
    snd (get_points_all p' None) = Err InvalidArgument.
Proof. exact C04_sizes_shape_refuted_proof. Qed.
Print Assumptions C04_sizes_shape_refuted.

(** C05. get_points(id) for an id in range: exactly the points of that
    element, in order; over all ids the results partition the cloud; ids
    above the batch size raise IndexError. *)
Theorem C05_get_points_id_partial :
  forall pa ia bs sz D rows ids B,
    describes pa ia bs sz D rows ids B ->
    exists p, init pa ia bs sz = Ok p /\
      (forall b, b < B -> get_points_id p (IdInt (Z.of_nat b)) = Ok (element b rows ids)) /\
      (forall i, (Z.of_nat B < i)%Z -> get_points_id p (IdInt i) = Err IndexError) /\
      Permutation (concat (map (fun b => element b rows ids) (seq 0 B))) rows.
Proof. exact C05_get_points_id_partial_proof. Qed.
Print Assumptions C05_get_points_id_partial.

Example C05_get_points_id_partial_ex :
  describes (P2 1 [[1#1];[2#1];[3#1]]) (Some [1;0;1]) None None 1 [[1#1];[2#1];[3#1]] [1;0;1] 2.
Proof. exact C05_get_points_id_partial_ex_proof. Qed.

(** C05 refuted: id = batch_size and negative ids are accepted and give an
    empty result, for every consistent cloud. *)
Theorem C05_get_points_id_refuted :
  forall pa ia bs sz D rows ids B,
    describes pa ia bs sz D rows ids B ->
    exists p, init pa ia bs sz = Ok p /\
      get_points_id p (IdInt (Z.of_nat B)) = Ok [] /\
      get_points_id p (IdInt (-1)) = Ok [].
Proof. exact C05_get_points_id_refuted_proof. Qed.
Print Assumptions C05_get_points_id_refuted.

Example C05_get_points_id_refuted_ex :
  describes (P2 1 [[1#1];[2#1];[3#1]]) (Some [1;0;1]) None None 1 [[1#1];[2#1];[3#1]] [1;0;1] 2.
Proof. exact C05_get_points_id_refuted_ex_proof. Qed.

(** C06. After any history of method calls (failing ones included): points,
    ids and batch size are unchanged, get_sizes() reports the true sizes,
    get_points(id) is unaffected, the bounding box is the one of a fresh cloud,
    and get_points() yields the true layout at the width of the first request. *)
Theorem C06_history_partial :
  forall pa ia bs sz D rows ids B dev eps ops,
    describes pa ia bs sz D rows ids B ->
    exists p, init pa ia bs sz = Ok p /\
      let q := run dev eps p ops in
      pts q = rows /\ bids q = ids /\ bsize q = B /\ dim q = D /\
      (exists t, snd (get_sizes q) = Ok t /\ ivals t = true_sizes B ids /\ nprod (ishape t) = B) /\
      (forall i, get_points_id q (IdInt i) = get_points_id p (IdInt i)) /\
      (forall a, snd (get_aabb dev eps q) = Ok a ->
         exists a0, snd (get_aabb dev eps p) = Ok a0 /\ amin a = amin a0 /\ amax a = amax a0) /\
      (forall m o, snd (get_points_all q m) = Ok o ->
         nprod (pshape o) = B /\
         prows o = padded_layout (repeat 0%Q D) (pV o) B rows ids) /\
      (forall m,
         Forall (fun o => match o with OpPointsAll (Some v) | OpUnflatten (Some v) =>
                            Forall (fun n => n <= v) (true_sizes B ids) | _ => True end)
                (ops ++ [OpPointsAll m]) ->
         exists o, snd (get_points_all q m) = Ok o /\
           (pV o = match pa with
                   | PN _ t => pV t
                   | _ => match first_request (ops ++ [OpPointsAll m]) with
                          | Some (Some v) => v
                          | _ => list_max (true_sizes B ids)
                          end
                   end)).
Proof. exact C06_history_partial_proof. Qed.
Print Assumptions C06_history_partial.

Example C06_history_partial_ex :
  describes (P2 1 [[1#1];[2#1];[3#1]]) (Some [1;0;1]) None None 1 [[1#1];[2#1];[3#1]] [1;0;1] 2 /\
  Forall (fun o => match o with OpPointsAll (Some v) | OpUnflatten (Some v) =>
                            Forall (fun n => n <= v) (true_sizes 2 [1;0;1]) | _ => True end)
    ([OpSizes; OpPointsAll (Some 4); OpSetShape (Some [1;2]); OpAABB] ++ [OpPointsAll None]).
Proof. exact C06_history_partial_ex_proof. Qed.

(** C06 refuted: the width of get_points(max_num_points) depends on earlier
    calls. *)
Theorem C06_history_refuted :
  exists (rows : list point) (ids : list nat) p p' o o',
    init (P2 1 rows) (Some ids) None None = Ok p /\
    get_points_all p None = (p', Ok o) /\
    snd (get_points_all p' (Some 5)) = Ok o' /\ pV o' <> 5 /\
    (exists o'', snd (get_points_all p (Some 5)) = Ok o'' /\ pV o'' = 5).
Proof. exact C06_history_refuted_proof. Qed.
Print Assumptions C06_history_refuted.

(** C06 refuted for padded clouds: max_num_points is ignored, and so is a
    batch shape set later. *)
Theorem C06_padded_width_refuted :
  exists (t : padded point) p p' o o',
    init (PN 1 t) None None None = Ok p /\
    snd (get_points_all p (Some 5)) = Ok o /\ pV o <> 5 /\
    set_batch_shape p (Some [2;1]) = (p', Ok tt) /\
    snd (get_points_all p' None) = Ok o' /\ pshape o' <> [2;1].
Proof. exact C06_padded_width_refuted_proof. Qed.
Print Assumptions C06_padded_width_refuted.

(** C07. set_batch_shape accepts exactly the shapes whose product is the
    batch size, afterwards multi-indices address elements in row-major order,
    out-of-range ones are rejected, and the sizes have that shape. *)
Theorem C07_set_batch_shape :
  forall pa ia bs sz D rows ids B dev eps ops (s : list nat),
    describes pa ia bs sz D rows ids B ->
    exists p, init pa ia bs sz = Ok p /\
      let q := run dev eps p ops in
      (snd (set_batch_shape q (Some s)) = Ok tt <-> fold_right Nat.mul 1 s = B) /\
      (fold_right Nat.mul 1 s <> B -> set_batch_shape q (Some s) = (q, Err InvalidArgument)) /\
      (fold_right Nat.mul 1 s = B ->
       let q' := fst (set_batch_shape q (Some s)) in
       snd (get_sizes q') = Ok (ITensor s (true_sizes B ids)) /\
       (forall idx, in_shape s idx ->
          get_points_id q' (IdMulti (map Z.of_nat idx)) = Ok (element (row_major s idx) rows ids)) /\
       (forall idx, length idx = length s -> ~ in_shape s idx ->
          get_points_id q' (IdMulti (map Z.of_nat idx)) = Err InvalidArgument)).
Proof. exact C07_set_batch_shape_proof. Qed.
Print Assumptions C07_set_batch_shape.

Example C07_set_batch_shape_ex :
  describes (P2 1 [[1#1];[2#1];[3#1];[4#1]]) None None (Some (ITensor [4] [1;1;1;1]))
     1 [[1#1];[2#1];[3#1];[4#1]] [0;1;2;3] 4 /\
  fold_right Nat.mul 1 [2;2] = 4 /\ in_shape [2;2] [1;0] /\ row_major [2;2] [1;0] = 2.
Proof. exact C07_set_batch_shape_ex_proof. Qed.

(** C08. The decision table of the constructor: which exception each
    malformed input gives; every consistent input is accepted. *)
Theorem C08_validation_partial :
  (forall n ids bs sz, init (P1 n) ids bs sz = Err ValueError) /\
  (forall D rows bs, init (P2 D rows) None bs None = Err ValueError) /\
  (forall D rows ids bs sz, length rows <> length ids ->
     init (P2 D rows) (Some ids) bs sz = Err AssertionError) /\
  (forall D t ids bs s, ishape s <> pshape t -> (bs = None \/ bs = Some (nprod (pshape t))) ->
     init (PN D t) ids bs (Some s) = Err ValueError) /\
  (forall D t ids b sz, b <> nprod (pshape t) ->
     init (PN D t) ids (Some b) sz = Err InvalidArgument) /\
  (forall pa ia bs sz D rows ids B, describes pa ia bs sz D rows ids B ->
     exists p, init pa ia bs sz = Ok p /\ pts p = rows /\ bids p = ids /\ bsize p = B /\ dim p = D).
Proof. exact C08_validation_partial_proof. Qed.
Print Assumptions C08_validation_partial.

Example C08_validation_partial_ex :
  length [[1#1];[2#1]] <> length [0] /\
  describes (P2 1 [[1#1];[2#1]]) None (Some 2) (Some (ITensor [2] [1;1])) 1 [[1#1];[2#1]] [0;1] 2.
Proof. exact C08_validation_partial_ex_proof. Qed.

(** C08 refuted: sizes that do not sum to the number of points, and sizes
    beyond the padding width, are accepted; the resulting cloud has more batch
    ids than points. *)
Theorem C08_validation_refuted :
  (exists rows sizes p, sum sizes <> length rows /\
     init (P2 1 rows) None None (Some (ITensor [length sizes] sizes)) = Ok p /\
     length (bids p) <> length (pts p)) /\
  (exists V rows sizes p, ~ Forall (fun n => n <= V) sizes /\
     init (PN 1 (Padded [length sizes] V rows)) None None (Some (ITensor [length sizes] sizes)) = Ok p /\
     length (bids p) <> length (pts p)).
Proof. exact C08_validation_refuted_proof. Qed.
Print Assumptions C08_validation_refuted.

(** C09. Padded features are flattened so that row i belongs to point i, for
    any order of batch ids and after any history of calls. *)
Theorem C09_flatten_features :
  forall (A : Type) (d : A) pa ia bs sz D rows ids B dev eps ops (t : padded A),
    describes pa ia bs sz D rows ids B ->
    exists p, init pa ia bs sz = Ok p /\
      let q := run dev eps p ops in
      forall shape, (exists s, snd (get_sizes q) = Ok s /\ ishape s = shape) ->
      pshape t = shape -> length (prows t) = B * pV t ->
      Forall (fun n => n <= pV t) (true_sizes B ids) ->
      exists f, snd (flatten_features (inl t) q) = Ok f /\ length f = length rows /\
        forall i, i < length rows ->
          nth i f d = nth (nth i ids 0 * pV t + rank i ids) (prows t) d.
Proof. exact C09_flatten_features_proof. Qed.
Print Assumptions C09_flatten_features.

Example C09_flatten_features_ex :
  exists p, init (P2 1 [[1#1];[2#1];[3#1]]) (Some [1;0;1]) None None = Ok p /\
    snd (flatten_features (inl (Padded [2] 3 [10;99;99;20;30;99])) p) = Ok [20;10;30].
Proof. exact C09_flatten_features_ex_proof. Qed.

(** C09. Formatting a layer's output in padded layout and flattening it
    again returns it unchanged; and the padded output holds row i of the
    features at the place of point i. *)
Theorem C09_format_flatten_inverse :
  forall (A : Type) (zero : A) D rows ids B bs dev eps ops (f : list A),
    describes (P2 D rows) (Some ids) bs None D rows ids B ->
    first_request ops = None ->
    length f = length rows ->
    exists p, init (P2 D rows) (Some ids) bs None = Ok p /\
      let q := run dev eps p ops in
      exists q' t,
        format_output zero f q false true = (q', Ok (inl t)) /\
        prows t = padded_layout zero (pV t) B f ids /\
        snd (flatten_features (inl t) q') = Ok f.
Proof. exact C09_format_flatten_inverse_proof. Qed.
Print Assumptions C09_format_flatten_inverse.

Example C09_format_flatten_inverse_ex :
  describes (P2 1 [[1#1];[2#1];[3#1]]) (Some [1;0;1]) None None 1 [[1#1];[2#1];[3#1]] [1;0;1] 2 /\
  first_request [OpSizes; OpSetShape (Some [2;1])] = None.
Proof. exact C09_format_flatten_inverse_ex_proof. Qed.

(** C09. return_sorted lists the rows element by element; 2D features with
    the right number of rows are returned unchanged, others rejected. *)
Theorem C09_sorted_and_flat :
  forall (A : Type) (zero : A) pa ia bs sz D rows ids B (f : list A),
    describes pa ia bs sz D rows ids B ->
    exists p, init pa ia bs sz = Ok p /\
      (length f = length rows ->
        snd (format_output zero f p true false)
          = Ok (inr (concat (map (fun b => element b f ids) (seq 0 B)))) /\
        snd (format_output zero f p false false) = Ok (inr f) /\
        snd (flatten_features (inr f) p) = Ok f) /\
      (length f <> length rows -> snd (flatten_features (inr f) p) = Err InvalidArgument).
Proof. exact C09_sorted_and_flat_proof. Qed.
Print Assumptions C09_sorted_and_flat.

Example C09_sorted_and_flat_ex :
  exists p, init (P2 1 [[1#1];[2#1];[3#1]]) (Some [1;0;1]) None None = Ok p /\
    snd (format_output 0 [10;20;30] p true false) = Ok (inr [20;10;30]).
Proof. exact C09_sorted_and_flat_ex_proof. Qed.

(** C10. The box of element b contains every point of b with margin eps on
    each side, touches the extreme points up to exactly that margin, and
    get_diameter bounds all distances inside the element. *)
Theorem C10_aabb :
  forall pa ia bs sz D rows ids B dev eps ops,
    describes pa ia bs sz D rows ids B -> (0 <= eps)%Q ->
    exists p a, init pa ia bs sz = Ok p /\
      snd (get_aabb dev eps (run dev eps p ops)) = Ok a /\
      length (amin a) = B /\ length (amax a) = B /\
      (forall i d, i < length rows -> d < D ->
         let b := nth i ids 0 in
         (coord (nth b (amin a) []) d <= coord (nth i rows []) d - eps /\
          coord (nth i rows []) d + eps <= coord (nth b (amax a) []) d)%Q) /\
      (forall b d, In b ids -> d < D ->
         (exists i, i < length rows /\ nth i ids 0 = b /\
            (coord (nth b (amin a) []) d == coord (nth i rows []) d - eps)%Q) /\
         (exists i, i < length rows /\ nth i ids 0 = b /\
            (coord (nth b (amax a) []) d == coord (nth i rows []) d + eps)%Q)).
Proof. exact C10_aabb_proof. Qed.
Print Assumptions C10_aabb.

Example C10_aabb_ex :
  exists p a, init (P2 2 [[1#1;5#1];[2#1;0#1];[3#1;7#1]]) (Some [1;0;1]) None None = Ok p /\
    snd (get_aabb CPU 0 p) = Ok a /\ amax a = [[2#1;0#1];[3#1;7#1]].
Proof. exact C10_aabb_ex_proof. Qed.

(** C10. The (squared) diameter bounds the squared distance of any two points
    of an element, strictly if the margin is positive. *)
Theorem C10_diameter :
  forall pa ia bs sz D rows ids B dev eps,
    describes pa ia bs sz D rows ids B -> (0 <= eps)%Q ->
    Forall (fun r => length r = D) rows ->
    exists p a s diam, init pa ia bs sz = Ok p /\
      snd (get_aabb dev eps p) = Ok a /\ get_diameter_sq a = Ok (s, diam) /\
      length diam = B /\ nprod s = B /\
      forall i j, i < length rows -> j < length rows -> nth i ids 0 = nth j ids 0 ->
        (dist2 D (nth i rows []) (nth j rows []) <= nth (nth i ids 0%nat) diam 0)%Q /\
        ((0 < eps)%Q -> 0 < D ->
         (dist2 D (nth i rows []) (nth j rows []) < nth (nth i ids 0%nat) diam 0)%Q).
Proof. exact C10_diameter_proof. Qed.
Print Assumptions C10_diameter.

Example C10_diameter_ex :
  exists p a s diam,
    init (P2 2 [[1#1;5#1];[2#1;0#1];[3#1;7#1]]) (Some [1;0;1]) None None = Ok p /\
    snd (get_aabb CPU 0 p) = Ok a /\ get_diameter_sq a = Ok (s, diam) /\
    Forall2 Qeq diam [0#1; 8#1].
Proof. exact C10_diameter_ex_proof. Qed.

(** C10 refuted: a batch shape set after the first get_AABB() is not used by
    get_diameter(). *)
Theorem C10_diameter_shape_refuted :
  exists rows p p1 p2 a a' s d,
    init (P2 1 rows) (Some [0;1]) None None = Ok p /\
    get_aabb CPU 0 p = (p1, Ok a) /\ set_batch_shape p1 (Some [2;1]) = (p2, Ok tt) /\
    snd (get_aabb CPU 0 p2) = Ok a' /\ get_diameter_sq a' = Ok (s, d) /\ s <> [2;1].
Proof. exact C10_diameter_shape_refuted_proof. Qed.
Print Assumptions C10_diameter_shape_refuted.
