(** Which constructor arguments describe which batch (specification). *)
From Coq Require Import List Arith ZArith QArith Bool.
From Verif Require Import Tensor PointCloud History Spec.
Import ListNotations.
Local Open Scope nat_scope.

(** [describes points ids batch_size sizes D rows bids B]: the arguments of
    the PointCloud constructor are a consistent description of the batch of
    [B] elements whose points are [rows] (of dimension [D]), point [i]
    belonging to element [nth i bids]. *)
Inductive describes : points_arg -> option (list nat) -> option nat -> option itensor ->
  nat -> list point -> list nat -> nat -> Prop :=
| by_ids D rows ids B bs :
    length rows = length ids -> Forall (fun b => b < B) ids -> all_nonempty B ids ->
    (bs = Some B \/ bs = None /\ ids <> []) ->
    describes (P2 D rows) (Some ids) bs None D rows ids B
| by_ids_and_sizes D rows ids B bs :
    length rows = length ids -> Forall (fun b => b < B) ids ->
    (bs = Some B \/ bs = None /\ 0 < B /\ In (B - 1) ids) ->
    describes (P2 D rows) (Some ids) bs (Some (ITensor [B] (true_sizes B ids))) D rows ids B
| by_sizes D rows sizes B bs :
    length sizes = B -> sum sizes = length rows -> (bs = None \/ bs = Some B) ->
    describes (P2 D rows) None bs (Some (ITensor [B] sizes)) D rows (ids_of_sizes sizes) B
| by_padding D shape V rows sizes ids bs :
    length rows = nprod shape * V -> length sizes = nprod shape -> Forall (fun n => n <= V) sizes ->
    (bs = None \/ bs = Some (nprod shape)) ->
    describes (PN D (Padded shape V rows)) ids bs (Some (ITensor shape sizes))
      D (valid_rows sizes V rows) (ids_of_sizes sizes) (nprod shape)
| by_full D shape V rows ids bs :
    length rows = nprod shape * V ->
    (bs = None \/ bs = Some (nprod shape)) ->
    describes (PN D (Padded shape V rows)) ids bs None
      D rows (ids_of_sizes (repeat V (nprod shape))) (nprod shape).

(** The first request for the padded layout in a history of calls, with the
    [max_num_points] it was made with. *)
Definition request (o : op) : option (option nat) :=
  match o with
  | OpPointsAll m | OpUnflatten m => Some m
  | OpApplyUnflatten _ | OpFormat _ _ true => Some None
  | _ => None
  end.
Fixpoint first_request (ops : list op) : option (option nat) :=
  match ops with
  | [] => None
  | o :: r => match request o with Some m => Some m | None => first_request r end
  end.

(** [cloud dev eps D rows ids B p]: the object [p] was built by the
    constructor, in any of the accepted ways, from the batch of [B] elements
    (some possibly empty) with points [rows] of dimension [D], point [i]
    belonging to element [nth i ids]; afterwards any methods were called on
    it, any number of times, successfully or not. *)
Inductive cloud (dev : device) (eps : Q) (D : nat) (rows : list point) (ids : list nat) (B : nat)
  : pc -> Prop :=
| cloud_new pa ia bs sz p :
    init pa ia bs sz = Ok p ->
    pts p = rows -> bids p = ids -> bsize p = B -> dim p = D ->
    length rows = length ids -> Forall (fun b => b < B) ids ->
    Forall (fun r => length r = D) rows ->
    cloud dev eps D rows ids B p
| cloud_call p o : cloud dev eps D rows ids B p -> cloud dev eps D rows ids B (step dev eps p o).
