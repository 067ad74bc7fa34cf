(** Model of pylib/pc/PointHierarchy.py. *)
From Coq Require Import String Ascii List Arith ZArith QArith Bool.
From Verif Require Import Tensor PointCloud Grid Neighbors Neighborhood Sampling.
Import ListNotations.
Local Open Scope nat_scope.

(** Cell sizes of one level: a number or a list of numbers. *)
Inductive cell_arg := CScalar (c : Q) | CVector (l : list Q).

(** PointHierarchy.py:57-76: the number of given sizes is [shape[0]], which does
    not exist for a number; missing sizes are filled with the entry at index
    [rank - 1 = 0]; more sizes than dimensions are an error. An empty list has
    no entry 0: an error on CPU, on GPU tf.gather reads zero (out of scope). *)
Definition tile_cell_sizes (dev : device) (D : nat) (c : cell_arg) : result (list Q) :=
  match c with
  | CScalar _ => Err InvalidArgument
  | CVector l =>
    let k := length l in
    padded <- (if k <? D then
                 match nth_error l (1 - 1) with
                 | Some x => Ok (l ++ repeat x (D - k))
                 | None => Err (match dev with CPU => InvalidArgument | GPU => OutOfScope end)
                 end
               else Ok l) ;;
    if k <? D + 1 then Ok padded else Err InvalidArgument
  end.

(** PointHierarchy object, PointHierarchy.py:47-53. [_aabb] is stored but not
    used by Grid (Grid.py:52-60 takes the box from the cloud). *)
Record hierarchy := Hierarchy {
  hclouds : list pc;
  hcells : list (list Q);
  hnbhs : list nbh;
  hdim : nat;
  hbshape : option (list nat) }.

Section Code.
  Context (dev : device) (eps : Q) (search : search_fn) (fuel : nat) (draws : nat -> nat -> nat)
          (mode : string) (D : nat) (shape : option (list nat)).

  (** PointHierarchy.py:56-98, the loop over the levels; [draws l] are the
      random draws of level [l]. The Grid constructor caches the bounding box
      in the cloud of the level ([gcloud g]). *)
  Fixpoint levels (l : nat) (p : pc) (sizes : list cell_arg)
    : option (result (list pc * list (list Q) * list nbh)) :=
    match sizes with
    | [] => Some (Ok ([p], [], []))
    | c :: rest =>
      match (cs <- tile_cell_sizes dev D c ;;
             g <- mk_grid dev eps p cs ;;
             n <- snd (mk_nbh search g cs None 0) ;;
             Ok (cs, g, n)) with
      | Err e => Some (Err e)
      | Ok (cs, g, n) =>
        match sample dev fuel (draws l) n mode with
        | None => None
        | Some (Err e) => Some (Err e)
        | Some (Ok (q, _)) =>
          let '(q', r) := set_batch_shape q shape in
          match r with
          | Err e => Some (Err e)
          | Ok _ =>
            match levels (S l) q' rest with
            | Some (Ok (ps, css, ns)) => Some (Ok (gcloud g :: ps, cs :: css, n :: ns))
            | other => other
            end
          end
        end
      end
    end.
End Code.

(** PointHierarchy.py:40-98 __init__. *)
Definition mk_hierarchy (dev : device) (eps : Q) (search : search_fn) (fuel : nat)
  (draws : nat -> nat -> nat) (p : pc) (sizes : list cell_arg) (mode : string)
  : option (result hierarchy) :=
  let '(p0, box) := get_aabb dev eps p in
  match box with
  | Err e => Some (Err e)
  | Ok _ =>
    match levels dev eps search fuel draws mode (dim p0) (bshape p0) 0 p0 sizes with
    | None => None
    | Some (Err e) => Some (Err e)
    | Some (Ok (ps, css, ns)) => Some (Ok (Hierarchy ps css ns (dim p0) (bshape p0)))
    end
  end.

(** Running a method of every level in order; the first exception stops. *)
Fixpoint each_level {A} (f : pc -> pc * result A) (ps : list pc) : list pc * result (list A) :=
  match ps with
  | [] => ([], Ok [])
  | p :: r =>
    let '(p', x) := f p in
    match x with
    | Err e => (p' :: r, Err e)
    | Ok a => let '(r', y) := each_level f r in (p' :: r', l <- y ;; Ok (a :: l))
    end
  end.

Definition set_clouds (h : hierarchy) (ps : list pc) : hierarchy :=
  Hierarchy ps (hcells h) (hnbhs h) (hdim h) (hbshape h).

(** PointHierarchy.py:100-122 get_points with a batch id and without
    ([max_num_points] is not used). *)
Definition h_get_points_id (h : hierarchy) (id : point_id) : result (list (list point)) :=
  snd (each_level (fun p => (p, get_points_id p id)) (hclouds h)).
Definition h_get_points_all (h : hierarchy) (max_num_points : option nat)
  : hierarchy * result (list (padded point)) :=
  let '(ps, r) := each_level (fun p => get_points_all p None) (hclouds h) in (set_clouds h ps, r).

(** PointHierarchy.py:124-138 get_sizes. *)
Definition h_get_sizes (h : hierarchy) : hierarchy * result (list itensor) :=
  let '(ps, r) := each_level get_sizes (hclouds h) in (set_clouds h ps, r).

(** PointHierarchy.py:140-157 set_batch_shape ([_batch_shape] of the hierarchy
    is not updated). *)
Definition h_set_batch_shape (h : hierarchy) (shape : option (list nat)) : hierarchy * result unit :=
  let '(ps, r) := each_level (fun p => set_batch_shape p shape) (hclouds h) in
  (set_clouds h ps, _ <- r ;; Ok tt).

(** Python list indexing with negative indices. *)
Definition py_nth {A} (l : list A) (i : Z) : result A :=
  let j := (if i <? 0 then i + Z.of_nat (length l) else i)%Z in
  if (j <? 0)%Z then Err IndexError
  else match nth_error l (Z.to_nat j) with Some x => Ok x | None => Err IndexError end.

(** PointHierarchy.py:159-182 get_neighborhood. Without index and transposed it
    calls a method [transposed] that does not exist. *)
Definition h_get_neighborhood (dev : device) (eps : Q) (search : search_fn) (h : hierarchy)
  (i : option Z) (transposed : bool) : result (list nbh) :=
  match i with
  | None =>
    if transposed then (match hnbhs h with [] => Ok [] | _ => Err AttributeError end)
    else Ok (hnbhs h)
  | Some i =>
    n <- py_nth (hnbhs h) i ;;
    if transposed then (t <- transpose dev eps search n ;; Ok [t]) else Ok [n]
  end.

(** PointHierarchy.py:184-188 __getitem__ (integers) and __len__. *)
Definition h_getitem (h : hierarchy) (i : Z) : result pc := py_nth (hclouds h) i.
Definition h_len (h : hierarchy) : nat := length (hclouds h).
