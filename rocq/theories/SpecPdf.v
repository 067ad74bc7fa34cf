(** Specification vocabulary for the density properties. *)
From Coq Require Import List Arith ZArith QArith Reals Qreals Bool Permutation.
From Verif Require Import Tensor PointCloud Spec SpecGrid Neighbors Neighborhood Pdf.
Import ListNotations.
Local Open Scope nat_scope.

Definition sum_over (l : list nat) (f : nat -> R) : R := fold_right Rplus 0%R (map f l).
Definition product_over (l : list nat) (f : nat -> R) : R := fold_right Rmult 1%R (map f l).

(** Density of the standard normal distribution. *)
Definition std_normal (x : R) : R := (exp (- (x * x) / 2) / sqrt (2 * PI))%R.

(** Product kernel of the difference of two points, scaled per axis by
    bandwidth times radius. *)
Definition kernel (D : nat) (bw : list R) (radii : list Q) (p q : list Q) : R :=
  product_over (seq 0 D) (fun d =>
    std_normal ((Q2R (nth d p 0%Q) - Q2R (nth d q 0%Q)) / (nth d bw 0 * Q2R (nth d radii 0%Q)))%R).

(** The points of the element of point [i] closer than the (first) radius. *)
Definition close_points (D : nat) (radii : list Q) (rows : list point) (ids : list nat) (i : nat) : list nat :=
  filter (fun j => Nat.eqb (nth j ids 0) (nth i ids 0) &&
                   negb (Qle_bool (nth 0 radii 0 * nth 0 radii 0)%Q (dist2 D (nth j rows []) (nth i rows []))))
         (seq 0 (length ids)).

(** Kernel density estimate at point [i]. *)
Definition density (D : nat) (bw : list R) (radii : list Q) (rows : list point) (ids : list nat) (i : nat) : R :=
  (sum_over (close_points D radii rows ids i) (fun j => kernel D bw radii (nth j rows []) (nth i rows []))
   / product_over (seq 0 D) (fun d => nth d bw 0))%R.

(** [rows'], [ids'] are [rows], [ids] reordered by [s] and translated by [t]. *)
Definition moved_copy (D : nat) (s : list nat) (t : nat -> Q) (rows : list point) (ids : list nat)
  (rows' : list point) (ids' : list nat) : Prop :=
  Permutation s (seq 0 (length ids)) /\ ids' = map (fun i => nth i ids 0) s /\
  forall k d, k < length ids -> d < D -> (xc rows' k d == xc rows (nth k s 0%nat) d + t d)%Q.

(** A bandwidth is one number for all axes or one per axis. *)
Definition all_axes (D : nat) (bw : list R) : list R := match bw with [x] => repeat x D | _ => bw end.
Definition valid_bandwidth (D : nat) (bw : list R) : Prop :=
  length (all_axes D bw) = D /\ Forall (fun x => (0 < x)%R) (all_axes D bw).

(** What get_pdf is expected to give for a row (point, center) of the neighbor
    list [nbs] in terms of the indices of the original points. *)
Definition row_density (D : nat) (radii : list Q) (rows : list point) (ids : list nat) (nbs : list (nat * nat))
  (bw : list R) (mode : kde_mode) (normalize : bool) (q : nat * nat) : R :=
  (match mode with KNoPdf => 1 | _ => density D (all_axes D bw) radii rows ids (fst q) end
   / (if normalize then INR (length (filter (fun q' => Nat.eqb (snd q') (snd q)) nbs)) else 1))%R.

(** Calls of the two methods with their arguments, and the arguments that
    determine the stored density after a sequence of calls: those of the last
    compute_pdf, or of the first get_pdf if compute_pdf was not called before
    it. *)
Inductive pdf_call := PCompute (bw : list R) (mode : kde_mode) (normalize : bool)
                    | PGet (bw : list R) (mode : kde_mode) (normalize : bool).
Definition call_bw (c : pdf_call) : list R := match c with PCompute b _ _ | PGet b _ _ => b end.
Definition effective (calls : list pdf_call) : option (list R * kde_mode * bool) :=
  fold_left (fun s c => match c, s with
    | PCompute b m z, _ => Some (b, m, z)
    | PGet b m z, None => Some (b, m, z)
    | PGet _ _ _, Some a => Some a end) calls None.

(** Running a sequence of calls on an object. *)
Section Run.
  Context (dev : device) (search : search_fn) (kde : kde_fn).
  Definition pdf_step (x : dnbh) (c : pdf_call) : dnbh :=
    match c with
    | PCompute b m z => fst (compute_pdf dev search kde x b m z)
    | PGet b m z => fst (get_pdf dev search kde x b m z)
    end.
  Definition pdf_run (x : dnbh) (calls : list pdf_call) : dnbh := fold_left pdf_step calls x.
End Run.
