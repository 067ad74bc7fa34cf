(** Model of pylib/pc/PointCloud.py and pylib/pc/utils.py. *)
From Coq Require Import List Arith ZArith QArith Qminmax Lia Bool.
From Verif Require Import Tensor.
Import ListNotations.
Local Open Scope nat_scope.

Notation point := (list Q).

(** The [points] argument (PointCloud.py:87, utils.py:31-44): a 1D tensor, a
    2D tensor [[N,D]] or a padded tensor [[A1..An,V,D]].  A 0D tensor is not
    modelled. *)
Inductive points_arg :=
| P1 (n : nat)
| P2 (D : nat) (rows : list point)
| PN (D : nat) (t : padded point).

(** The closure stored in [_unflatten]: either the one returned by
    flatten_batch_to_2d (PointCloud.py:136) or the lambda of
    PointCloud.py:229-232, which captured [max_num_points]. *)
Inductive unfl :=
| UPadded (shape : list nat) (V : nat) (sizes : list nat)
| USeg (max_rows : option nat).

(** _AABB object, PointCloud.py:23-43 (the back reference is dropped). *)
Record aabb := AABB {
  amin : list point;
  amax : list point;
  abshape : option (list nat) }.

(** PointCloud object, PointCloud.py:86-150. [segshape] is the shape of
    [_get_segment_id] (its content is always range(batch_size) reshaped), None
    while that attribute does not exist. [_batch_size_numpy] always holds the
    same number as [_batch_size] and is not duplicated. *)
Record pc := PC {
  pts : list point;
  dim : nat;
  bids : list nat;
  bsize : nat;
  bshape : option (list nat);
  segshape : option (list nat);
  psizes : option itensor;
  unflatten : option unfl;
  paabb : option aabb;
  sidx : list nat }.

Definition set_psizes (p : pc) (s : option itensor) : pc :=
  PC (pts p) (dim p) (bids p) (bsize p) (bshape p) (segshape p) s
     (unflatten p) (paabb p) (sidx p).
Definition set_unflatten (p : pc) (u : option unfl) : pc :=
  PC (pts p) (dim p) (bids p) (bsize p) (bshape p) (segshape p) (psizes p)
     u (paabb p) (sidx p).
Definition set_aabb (p : pc) (a : option aabb) : pc :=
  PC (pts p) (dim p) (bids p) (bsize p) (bshape p) (segshape p) (psizes p)
     (unflatten p) a (sidx p).
Definition set_shapes (p : pc) (bs ss : option (list nat)) : pc :=
  PC (pts p) (dim p) (bids p) (bsize p) bs ss (psizes p)
     (unflatten p) (paabb p) (sidx p).

(** utils.py:21-44 check_valid_point_cloud_input. *)
Definition check_valid_point_cloud_input (points : points_arg)
  (sizes : option itensor) (ids : option (list nat)) : result unit :=
  match points with
  | P2 _ rows =>
    match sizes, ids with
    | None, None => Err ValueError
    | _, Some l => if Nat.eqb (length rows) (length l) then Ok tt else Err AssertionError
    | _, None => Ok tt
    end
  | P1 _ => Err ValueError
  | PN _ _ => Ok tt
  end.

(** [tf.argsort(self._batch_ids)], PointCloud.py:122. *)
Definition argsort_ids (l : list nat) : list nat := argsort Nat.leb l.

(** PointCloud.py:124-139 _init_from_padded. *)
Definition init_from_padded (D : nat) (t : padded point)
  (batch_size : option nat) (sizes : option itensor) : result pc :=
  let shape := pshape t in
  let bs := match batch_size with Some b => b | None => nprod shape end in
  let sz := match sizes with
            | Some s => s
            | None => ITensor shape (repeat (pV t) (nprod shape)) end in
  if negb (Nat.eqb bs (nprod shape)) then Err InvalidArgument else
  flat <- flatten_batch_to_2d t sz ;;
  ids <- tf_repeat (seq 0 bs) (ivals sz) ;;
  Ok (PC flat D ids bs (Some shape) (Some shape) (Some sz)
        (Some (UPadded shape (pV t) (ivals sz))) None (argsort_ids ids)).

(** PointCloud.py:141-150 _init_from_segmented.  With an empty [batch_ids] and
    no [batch_size] the code computes int32-min + 1 as batch size: out of
    scope. *)
Definition init_from_segmented (D : nat) (rows : list point)
  (ids : option (list nat)) (batch_size : option nat) (sizes : option itensor)
  : result pc :=
  match ids with
  | None =>
    match sizes with
    | None => Err AttributeError
    | Some s =>
      let bs := match batch_size with Some b => b | None => nprod (ishape s) end in
      if 1 <? length (ishape s) then Err InvalidArgument else
      ids' <- tf_repeat (seq 0 bs) (ivals s) ;;
      Ok (PC rows D ids' bs None None sizes None None (argsort_ids ids'))
    end
  | Some l =>
    match batch_size, l with
    | None, [] => Err OutOfScope
    | _, _ =>
      let bs := match batch_size with Some b => b | None => list_max0 l + 1 end in
      Ok (PC rows D l bs None None sizes None None (argsort_ids l))
    end
  end.

(** PointCloud.py:86-122 __init__. *)
Definition init (points : points_arg) (ids : option (list nat))
  (batch_size : option nat) (sizes : option itensor) : result pc :=
  _ <- check_valid_point_cloud_input points sizes ids ;;
  match points with
  | P1 _ => Err ValueError
  | P2 D rows => init_from_segmented D rows ids batch_size sizes
  | PN D t => init_from_padded D t batch_size sizes
  end.

(** PointCloud.py:185-205 get_sizes. When the final reshape fails the counts
    stay cached, as in the code. *)
Definition get_sizes (p : pc) : pc * result itensor :=
  match psizes p with
  | Some s => (p, Ok s)
  | None =>
    let '(ids, cnts) := unique_with_counts Nat.eqb (bids p) in
    match gather cnts (argsort Nat.leb ids) with
    | Err e => (p, Err e)
    | Ok c =>
      let flat := ITensor [length c] c in
      match bshape p with
      | None => (set_psizes p (Some flat), Ok flat)
      | Some s =>
        match reshape flat s with
        | Err e => (set_psizes p (Some flat), Err e)
        | Ok t => (set_psizes p (Some t), Ok t)
        end
      end
    end
  end.

(** PointCloud.py:207-233 get_unflatten: creates and caches the closure. *)
Definition get_unflatten (p : pc) (max_num_points : option nat) : pc * unfl :=
  match unflatten p with
  | Some u => (p, u)
  | None => (set_unflatten p (Some (USeg max_num_points)), USeg max_num_points)
  end.

(** Calling the closure on [data] (one row per point, [zero] the zero row). *)
Definition apply_unflatten {A} (zero : A) (p : pc) (u : unfl) (data : list A)
  : pc * result (padded A) :=
  match u with
  | UPadded shape V sizes => (p, unflatten_padded zero shape V sizes data)
  | USeg max_rows =>
    match gather data (sidx p) with
    | Err e => (p, Err e)
    | Ok d =>
      let '(p', rs) := get_sizes p in
      (p', s <- rs ;; unflatten_2d_to_batch zero d s max_rows)
    end
  end.

(** [self._get_segment_id[i1]...[in]], PointCloud.py:174-178: row-major index;
    negative indices count from the end.  Too few indices leave a tensor:
    out of scope. *)
Fixpoint segment_id (shape : list nat) (idx : list Z) (acc : nat) : result nat :=
  match shape, idx with
  | [], [] => Ok acc
  | n :: s, i :: r =>
    let j := (if i <? 0 then i + Z.of_nat n else i)%Z in
    if ((0 <=? j) && (j <? Z.of_nat n))%Z
    then segment_id s r (acc * n + Z.to_nat j)
    else Err InvalidArgument
  | [], _ :: _ => Err InvalidArgument
  | _ :: _, [] => Err OutOfScope
  end.

Inductive point_id := IdInt (i : Z) | IdMulti (l : list Z).

(** PointCloud.py:173-181 get_points with an id. *)
Definition get_points_id (p : pc) (id : point_id) : result (list point) :=
  i <- match id with
       | IdInt i => Ok i
       | IdMulti l =>
         match segshape p with
         | None => Err AttributeError
         | Some s => j <- segment_id s l 0 ;; Ok (Z.of_nat j)
         end
       end ;;
  if (Z.of_nat (bsize p) <? i)%Z then Err IndexError
  else if negb (Nat.eqb (length (bids p)) (length (pts p))) then Err InvalidArgument
  else Ok (mask_select (map (fun b => Z.eqb (Z.of_nat b) i) (bids p)) (pts p)).

Definition zero_point (D : nat) : point := repeat 0%Q D.

(** PointCloud.py:182-183 get_points without id. *)
Definition get_points_all (p : pc) (max_num_points : option nat)
  : pc * result (padded point) :=
  let '(p', u) := get_unflatten p max_num_points in
  apply_unflatten (zero_point (dim p')) p' u (pts p').

(** [tf.math.unsorted_segment_min/max]: reduction of the rows of one segment,
    coordinate by coordinate; the empty segment gives the largest / smallest
    float (PointCloud.py:38-43). *)
Definition flt_max : Q := inject_Z (2 ^ 128 - 2 ^ 104).
Definition coord (p : point) (d : nat) : Q := nth d p 0%Q.
Definition red_min (D : nat) (rows : list point) : point :=
  map (fun d => match map (fun r => coord r d) rows with
                | [] => flt_max
                | x :: l => fold_left Qmin l x end) (seq 0 D).
Definition red_max (D : nat) (rows : list point) : point :=
  map (fun d => match map (fun r => coord r d) rows with
                | [] => (- flt_max)%Q
                | x :: l => fold_left Qmax l x end) (seq 0 D).

(** PointCloud.py:32-43 _AABB.__init__; [eps] is the margin 1e-9 of lines 40
    and 43 ([eps = 0] is what float32 makes of it for coordinates of magnitude
    at least 1/32). *)
Definition make_aabb (dev : device) (eps : Q) (p : pc) : result aabb :=
  mn <- unsorted_segment dev (red_min (dim p)) (pts p) (bids p) (bsize p) ;;
  mx <- unsorted_segment dev (red_max (dim p)) (pts p) (bids p) (bsize p) ;;
  Ok (AABB (map (map (fun x => x - eps)%Q) mn)
           (map (map (fun x => x + eps)%Q) mx) (bshape p)).

(** PointCloud.py:235-247 get_AABB. *)
Definition get_aabb (dev : device) (eps : Q) (p : pc) : pc * result aabb :=
  match paabb p with
  | Some a => (p, Ok a)
  | None =>
    match make_aabb dev eps p with
    | Err e => (p, Err e)
    | Ok a => (set_aabb p (Some a), Ok a)
    end
  end.

(** PointCloud.py:45-65 get_diameter, euclidean norm, squared. The result is
    reshaped to the batch shape captured when the box was created. *)
Definition sq_dist (p q : point) : Q :=
  fold_right Qplus 0%Q (map (fun d => (fst d - snd d) * (fst d - snd d))%Q (combine p q)).
Definition get_diameter_sq (a : aabb) : result (list nat * list Q) :=
  let diam := map (fun p => sq_dist (fst p) (snd p)) (combine (amax a) (amin a)) in
  match abshape a with
  | None => Ok ([length diam], diam)
  | Some s => if Nat.eqb (length diam) (nprod s) then Ok (s, diam) else Err InvalidArgument
  end.

(** PointCloud.py:249-281 set_batch_shape. *)
Definition set_batch_shape (p : pc) (shape : option (list nat)) : pc * result unit :=
  match shape with
  | None => (set_shapes p None (segshape p), Ok tt)
  | Some s =>
    if negb (Nat.eqb (nprod s) (bsize p)) then (p, Err InvalidArgument) else
    let p' := set_shapes p (Some s) (Some s) in
    match psizes p' with
    | None => (p', Ok tt)
    | Some t =>
      match reshape t s with
      | Err e => (p', Err e)
      | Ok t' => (set_psizes p' (Some t'), Ok tt)
      end
    end
  end.

(** utils.py:75-94 _flatten_features.  [inl] is a padded tensor (rank > 2),
    [inr] a 2D tensor. *)
Definition flatten_features {A} (features : padded A + list A) (p : pc)
  : pc * result (list A) :=
  match features with
  | inl t =>
    let '(p', rs) := get_sizes p in
    (p', s <- rs ;; flat <- flatten_batch_to_2d t s ;;
         gather flat (invert_permutation (sidx p')))
  | inr rows =>
    (p, if Nat.eqb (length rows) (length (pts p)) then Ok rows else Err InvalidArgument)
  end.

(** layers/utils.py:22-49 _format_output ([zero] is the zero feature row). *)
Definition format_output {A} (zero : A) (features : list A) (p : pc)
  (return_sorted return_padded : bool) : pc * result (padded A + list A) :=
  if return_padded then
    let '(p', u) := get_unflatten p None in
    let '(p'', r) := apply_unflatten zero p' u features in
    (p'', t <- r ;; Ok (inl t))
  else if return_sorted then
    (p, l <- gather features (sidx p) ;; Ok (inr l))
  else (p, Ok (inr features)).
