(** Model of pylib/pc/Neighborhood.py (except the densities, see Pdf.v). *)
From Coq Require Import List Arith ZArith QArith Bool.
From Verif Require Import Tensor PointCloud Grid Neighbors.
Import ListNotations.
Local Open Scope nat_scope.

(** A neighbor search: [find_neighbors(grid, centers, radii, max_neighbors)].
    The code imports either find_neighbors_tf or the wrapper of the CUDA op
    (pylib/pc/custom_ops/__init__.py); the grid is returned because its
    access structure may have been built. *)
Definition search_fn : Type := grid -> pc -> list Q -> nat -> grid * result (ranges * list (nat * nat)).

(** Neighborhood object, Neighborhood.py:218-255, without the density cache
    and the cached transposed object. *)
Record nbh := Nbh {
  ngrid : grid;
  nequal : bool;
  nsampled : pc;
  nradii : list Q;
  nmax : nat;
  nranges : ranges;
  nnbs : list (nat * nat);
  norig : list (nat * nat) }.

Section Code.
  Context (dev : device) (eps : Q) (search : search_fn).

  (** Neighborhood.py:85-87, 231-233: the cloud of the sorted points. *)
  Definition sorted_cloud (g : grid) : result pc :=
    init (P2 (dim (gcloud g)) (gspts g)) (Some (gsbids g)) (Some (bsize (gcloud g))) None.

  (** Neighborhood.py:95-99, 246-250: [tf.gather(sorted_indices, neighbors[:,0])]
      next to the second column. *)
  Definition original_ids (g : grid) (nbs : list (nat * nat)) : result (list (nat * nat)) :=
    l <- gather (gsidx g) (map fst nbs) ;; Ok (combine l (map snd nbs)).

  (** Neighborhood.py:52-104 compute_neighborhoods; the ranges are always
      returned here ([return_ranges] only drops them). *)
  Definition compute_neighborhoods (g : grid) (radius : list Q) (centers : option pc)
    (max_neighbors : nat) (return_sorted_ids : bool) : grid * result (list (nat * nat) * ranges) :=
    let radii := bcast (dim (gcloud g)) radius in
    match (match centers with Some p => Ok p | None => sorted_cloud g end) with
    | Err e => (g, Err e)
    | Ok c =>
      let '(g', rs) := search g c radii max_neighbors in
      (g', out <- rs ;;
           if return_sorted_ids then Ok (snd out, fst out)
           else (l <- original_ids g' (snd out) ;; Ok (l, fst out)))
    end.

  (** Neighborhood.py:218-255 __init__. *)
  Definition mk_nbh (g : grid) (radius : list Q) (sample : option pc) (max_neighbors : nat)
    : grid * result nbh :=
    let radii := bcast (dim (gcloud g)) radius in
    match (match sample with Some p => Ok p | None => sorted_cloud g end) with
    | Err e => (g, Err e)
    | Ok c =>
      let '(g', rs) := search g c radii max_neighbors in
      (g', out <- rs ;;
           l <- original_ids g' (snd out) ;;
           Ok (Nbh g' (match sample with None => true | Some _ => false end) c radii max_neighbors
                   (fst out) (snd out) l))
    end.

  (** Neighborhood.py:318-329 transpose: the neighborhood itself for a cloud
      with itself, else a new search in a grid of the sampled cloud. *)
  Definition transpose (n : nbh) : result nbh :=
    if nequal n then Ok n else
    g <- mk_grid dev eps (nsampled n) (nradii n) ;;
    snd (mk_nbh g (nradii n) (Some (gcloud (ngrid n))) 0).

  (** Neighborhood.py:332-366 _NeighborhoodTransposed. For a cloud with itself
      the constructor leaves an object without attributes
      ([self = neighborhood] only rebinds a local name): [Ok None]. *)
  Definition swap_pair (q : nat * nat) : nat * nat := (snd q, fst q).
  Definition mk_transposed (n : nbh) : result (option nbh) :=
    if nequal n then Ok None else
    g <- mk_grid dev eps (nsampled n) (nradii n) ;;
    let rev_ids := map swap_pair (norig n) in
    orig <- gather rev_ids (argsort Nat.leb (map snd rev_ids)) ;;
    let inv := invert_permutation (gsidx g) in
    l <- gather inv (map fst orig) ;;
    let nbs := combine l (map snd orig) in
    let num_center_points := length (pts (gcloud (ngrid n))) in
    ends <- zseg_reduce dev Z.max int32_min (map Z.of_nat (seq 1 (length (norig n))))
              (map (fun q => Z.of_nat (snd q)) nbs) (Z.of_nat num_center_points) ;;
    Ok (Some (Nbh g false (gcloud (ngrid n)) (nradii n) 0
                  (Ranges [num_center_points] ends) nbs orig)).
End Code.
