(** Specification vocabulary for the neighbor search properties. *)
From Coq Require Import List Arith ZArith QArith Bool.
From Verif Require Import Tensor PointCloud History Spec SpecCloud Grid SpecGrid.
Import ListNotations.
Local Open Scope nat_scope.

(** [grid_for dev eps D rows ids B cs g]: [g] is the grid of a cloud of the
    batch [rows], [ids], built with cell sizes [cs]; afterwards its access
    structure may have been requested and methods of its cloud called, any
    number of times. *)
Inductive grid_for (dev : device) (eps : Q) (D : nat) (rows : list point) (ids : list nat) (B : nat)
  (cs : list Q) : grid -> Prop :=
| grid_new p g : cloud dev eps D rows ids B p -> mk_grid dev eps p cs = Ok g ->
    grid_for dev eps D rows ids B cs g
| grid_get_DS g : grid_for dev eps D rows ids B cs g ->
    grid_for dev eps D rows ids B cs (fst (get_DS dev g))
| grid_cloud_call g o : grid_for dev eps D rows ids B cs g ->
    grid_for dev eps D rows ids B cs
      (Grid (step dev eps (gcloud g) o) (gcells g) (gbox g) (gnc g) (gkeys g) (gsidx g) (gskeys g)
            (gspts g) (gsbids g) (gds g)).

(** Points [j] of [rows] and [i] of [crows] belong to the same element and are
    closer than [r] / at most [r] apart. *)
Definition near (D : nat) (r : Q) (rows : list point) (ids : list nat) (crows : list point)
  (cids : list nat) (j i : nat) : Prop :=
  j < length ids /\ i < length cids /\ nth j ids 0 = nth i cids 0 /\
  (dist2 D (nth j rows []) (nth i crows []) < r * r)%Q.
Definition within (D : nat) (r : Q) (rows : list point) (ids : list nat) (crows : list point)
  (cids : list nat) (j i : nat) : Prop :=
  j < length ids /\ i < length cids /\ nth j ids 0 = nth i cids 0 /\
  (dist2 D (nth j rows []) (nth i crows []) <= r * r)%Q.

Definition slice {A} (s e : nat) (l : list A) : list A := firstn (e - s) (skipn s l).

(** [ends] delimits the rows of the neighbor list: the rows of center [i] are
    those from [ends[i-1]] (0 for the first center) up to [ends[i]]. *)
Definition delimits (ends : list Z) (nbs : list (nat * nat)) (num_centers : nat) : Prop :=
  length ends = num_centers /\
  (0 < num_centers -> nth (num_centers - 1) ends 0%Z = Z.of_nat (length nbs)) /\
  forall i, i < num_centers ->
    let s := match i with 0 => 0%Z | S k => nth k ends 0%Z end in
    let e := nth i ends 0%Z in
    (0 <= s <= e)%Z /\ (e <= Z.of_nat (length nbs))%Z /\
    slice (Z.to_nat s) (Z.to_nat e) nbs = filter (fun q => Nat.eqb (snd q) i) nbs.

(** Point [j] of [rows] lies inside the ellipsoid with semi-axes [radii]
    around point [i] of [crows] of the same element. *)
Definition inside_ellipsoid (D : nat) (radii : list Q) (rows : list point) (ids : list nat)
  (crows : list point) (cids : list nat) (j i : nat) : Prop :=
  j < length ids /\ i < length cids /\ nth j ids 0 = nth i cids 0 /\
  (fold_right Qplus 0 (map (fun d => let x := (nth d (nth j rows []) 0 - nth d (nth i crows []) 0) / nth d radii 1 in x * x)
             (seq 0 D)) < 1)%Q.

(** A grid in which the search is expected to work: two or more dimensions,
    positive cell sizes, every point inside the grid, and the number of
    points and of cells within 32 bit. *)
Record usable (eps : Q) (D : nat) (rows : list point) (ids : list nat) (B : nat) (cs : list Q)
  (g : grid) : Prop := {
  us_grid : grid_for GPU eps D rows ids B cs g;
  us_sizes : valid_sizes D cs;
  us_dim : 2 <= D;
  us_eps : (0 <= eps)%Q;
  us_fits : fits eps D (all_dims D cs) rows ids;
  us_points : (Z.of_nat (length ids) < 2 ^ 31 - 1)%Z;
  us_cells : (Z.of_nat B * product (gnc g) <= 2 ^ 31)%Z }.

(** The search radii are the cell sizes, at least in the two dimensions of the
    access structure, and the first one, which the fallback search compares
    distances with, is the smaller one. *)
Definition radii_match (D : nat) (radii cs : list Q) : Prop :=
  (nth 0 (all_dims D radii) 0 == nth 0 (all_dims D cs) 0)%Q /\
  (nth 1 (all_dims D radii) 0 == nth 1 (all_dims D cs) 0)%Q /\
  (nth 0 (all_dims D radii) 0 <= nth 1 (all_dims D radii) 0)%Q.
