(** Specification vocabulary for the hierarchy properties. *)
From Coq Require Import String List Arith ZArith QArith Bool Permutation.
From Verif Require Import Tensor PointCloud Spec SpecGrid SpecCloud SpecSampling Sampling Hierarchy.
Import ListNotations.
Local Open Scope nat_scope.

(** A batch: points and the element of every point. *)
Definition batch : Type := list point * list nat.

(** [lo] is what one level with cell sizes [cs] makes of the batch [up]. *)
Definition next_level (mode : string) (eps : Q) (D : nat) (cs : list Q) (up lo : batch) : Prop :=
  (means mode poisson_names /\ exists sel, poisson_sample D (nth 0 cs 0%Q) (fst up) (snd up) sel /\
     fst lo = map (fun i => nth i (fst up) []) sel /\ snd lo = map (fun i => nth i (snd up) 0) sel) \/
  (means mode average_names /\ cell_average eps D cs (fst up) (snd up) (fst lo) (snd lo)).

(** [chain R xs [y0; ..; yn]]: [R x0 y0 y1], [R x1 y1 y2], ... *)
Inductive chain {A B} (R : A -> B -> B -> Prop) : list A -> list B -> Prop :=
| chain_nil y : chain R [] [y]
| chain_cons x xs y z ys : R x y z -> chain R xs (z :: ys) -> chain R (x :: xs) (y :: z :: ys).

(** Sizes given for one level that the fallback search can work with: at
    most one per dimension, positive, and the first not larger than the
    second. *)
Definition good_sizes (D : nat) (l : list Q) : Prop :=
  l <> [] /\ length l <= D /\ Forall (fun c => (0 < c)%Q) l /\
  (nth 0 l 0 <= nth 1 l (nth 0 l 0))%Q.

(** The given sizes followed by copies of the first one. *)
Definition filled_with_first (D : nat) (l : list Q) : list Q := l ++ repeat (nth 0 l 0%Q) (D - length l).
(** The given sizes followed by copies of the last one (the documented
    behaviour). *)
Definition filled_with_last (D : nat) (l : list Q) : list Q := l ++ repeat (last l 0%Q) (D - length l).

(** The cells of size [cs] covering every element can be counted in 32 bit. *)
Definition few_cells (eps : Q) (D : nat) (cs : list Q) (B : nat) (b : batch) : Prop :=
  exists nc : list Z, length nc = D /\ (Z.of_nat B * product nc <= 2 ^ 31)%Z /\
    forall d, d < D -> (1 <= nth d nc 0)%Z /\
      forall i j, i < length (snd b) -> j < length (snd b) -> nth i (snd b) 0 = nth j (snd b) 0 ->
        (xc (fst b) i d - xc (fst b) j d + (2 # 1) * eps <= inject_Z (nth d nc 0%Z) * nth d cs 0)%Q.

(** [b'] is what remains of [b] some levels below: per element at most as many
    points, and no element loses its last point. *)
Definition thinned (b b' : batch) : Prop :=
  (forall e, count_occ Nat.eq_dec (snd b') e <= count_occ Nat.eq_dec (snd b) e) /\
  (forall e, In e (snd b) -> In e (snd b')).

(** [b'] consists of some of the points of [b], with their elements. *)
Definition subset_of (b b' : batch) : Prop :=
  exists sel, NoDup sel /\ Forall (fun i => i < length (snd b)) sel /\
    fst b' = map (fun i => nth i (fst b) []) sel /\ snd b' = map (fun i => nth i (snd b) 0) sel.

(** The cloud [q] holds exactly the points of [b], in some order. *)
Definition reordered (b : batch) (q : pc) : Prop :=
  exists s, Permutation s (seq 0 (length (snd b))) /\
    pts q = map (fun i => nth i (fst b) []) s /\ bids q = map (fun i => nth i (snd b) 0) s.

(** Inputs for which the fallback implementation can work: a positive margin
    around the bounding boxes, a nonempty cloud that can be indexed with 32 bit,
    usable cell sizes for every level. [fuel] bounds the number of rounds of the
    Poisson loop. *)
Record buildable (eps : Q) (D : nat) (rows : list point) (ids : list nat) (B : nat)
  (sizes : list (list Q)) (fuel : nat) : Prop := {
  bd_eps : (0 < eps)%Q;
  bd_flt : (eps <= flt_max)%Q;
  bd_dim : 2 <= D;
  bd_ne : ids <> [];
  bd_pts : (Z.of_nat (length ids) < 2 ^ 31 - 1)%Z;
  bd_fuel : length ids <= fuel;
  bd_sizes : Forall (good_sizes D) sizes;
  bd_cells : Forall (fun l => few_cells eps D (filled_with_first D l) B (rows, ids)) sizes }.
