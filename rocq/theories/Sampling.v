(** Model of sampling_tf (pylib/pc/custom_ops/custom_ops_tf.py:262-324) and of
    pylib/pc/sampling.py. *)
From Coq Require Import String Ascii List Arith ZArith QArith Bool.
From Verif Require Import Tensor PointCloud Grid Neighbors Neighborhood.
Import ListNotations.
Local Open Scope nat_scope.

(** Python slicing [l[s:e]] with negative indices counted from the end. *)
Definition py_index (n : nat) (i : Z) : nat :=
  Z.to_nat (Z.min (Z.of_nat n) (if (i <? 0)%Z then Z.max 0 (i + Z.of_nat n) else i)).
Definition py_slice {A} (s e : Z) (l : list A) : list A :=
  let a := py_index (length l) s in
  let b := py_index (length l) e in
  firstn (b - a) (skipn a l).

(** [tf.tensor_scatter_nd_update(t, idx, value)] with one value for all
    indices; an index out of range is an error on CPU and ignored on GPU. *)
Definition scatter_false (dev : device) (t : list bool) (idx : list nat) : result (list bool) :=
  if (match dev with CPU => negb (forallb (fun i => i <? length t) idx) | GPU => false end)
  then Err InvalidArgument
  else Ok (map (fun i => nth i t false && negb (existsb (Nat.eqb i) idx)) (seq 0 (length t))).

(** The points whose log probability is not -inf. *)
Definition candidates (avail : list bool) : list nat :=
  filter (fun i => nth i avail false) (seq 0 (length avail)).

(** custom_ops_tf.py:292-307: the Poisson loop. [avail] marks finite log
    probabilities; [draws k] selects the outcome of the k-th call of
    tf.random.categorical among the candidates, all of equal probability.
    [None]: the loop has not ended after [fuel] iterations. *)
Fixpoint poisson_loop (dev : device) (fuel : nat) (draws : nat -> nat) (k : nat) (ranges0 : list Z)
  (nbs : list (nat * nat)) (avail : list bool) (acc : list nat) : option (result (list nat)) :=
  match candidates avail with
  | [] => Some (Ok acc)
  | c0 :: cs =>
    match fuel with
    | 0 => None
    | S fuel' =>
      let c := nth (draws k mod length (c0 :: cs)) (c0 :: cs) 0 in
      match nth_error ranges0 c, nth_error ranges0 (c + 1) with
      | Some s, Some e =>
        match scatter_false dev avail (map fst (py_slice s e nbs)) with
        | Ok avail' => poisson_loop dev fuel' draws (S k) ranges0 nbs avail' (acc ++ [c])
        | Err x => Some (Err x)
        end
      | _, _ => Some (Err InvalidArgument)
      end
    end
  end.

(** Componentwise mean of rows of dimension [D] ([tf.math.segment_mean] of one
    segment). *)
Definition mean (D : nat) (rows : list point) : point :=
  map (fun d => (fold_right Qplus 0 (map (fun r => nth d r 0) rows) / inject_Z (Z.of_nat (length rows)))%Q)
      (seq 0 D).

(** Poisson branch, custom_ops_tf.py:282-309. [tf.concat(([0], ranges))] fails
    when the ranges are a scalar. *)
Definition sampling_poisson (dev : device) (fuel : nat) (draws : nat -> nat) (n : nbh)
  : option (result (list point * list nat * list nat)) :=
  let g := ngrid n in
  match rshape (nranges n) with
  | [_] =>
    match poisson_loop dev fuel draws 0 (0%Z :: rdata (nranges n)) (nnbs n)
            (repeat true (length (gspts g))) [] with
    | None => None
    | Some r => Some (sel <- r ;; ps <- gather (gspts g) sel ;; bs <- gather (gsbids g) sel ;; Ok (ps, bs, sel))
    end
  | _ => Some (Err InvalidArgument)
  end.

(** Cell average branch, custom_ops_tf.py:311-322. *)
Definition sampling_average (n : nbh) : result (list point * list nat * list nat) :=
  let g := ngrid n in
  let keys := gskeys g in
  let '(unique, counts) := unique_with_counts Z.eqb keys in
  let num := length unique in
  new_keys <- tf_repeat (seq 0 num) counts ;;
  let ps := map (fun s => mean (dim (gcloud g)) (segment s (gspts g) new_keys)) (seq 0 num) in
  let sel := map (fun s => hd 0 (segment s (seq 0 (length (gspts g))) new_keys)) (seq 0 num) in
  bs <- gather (gsbids g) sel ;;
  Ok (ps, bs, sel).

(** custom_ops_tf.py:262-324 sampling_tf: 0 is Poisson, 1 is cell average (the
    docstring says the opposite); another mode leaves the outputs undefined. *)
Definition sampling_tf (dev : device) (fuel : nat) (draws : nat -> nat) (n : nbh) (mode : nat)
  : option (result (list point * list nat * list nat)) :=
  match mode with
  | 0 => sampling_poisson dev fuel draws n
  | 1 => Some (sampling_average n)
  | _ => Some (Err OutOfScope)
  end.

(** [str.lower()] on ASCII strings. *)
Definition lower_ascii (c : ascii) : ascii :=
  let n := nat_of_ascii c in if (65 <=? n) && (n <=? 90) then ascii_of_nat (n + 32) else c.
Fixpoint lower (s : string) : string :=
  match s with EmptyString => EmptyString | String c r => String (lower_ascii c) (lower r) end.

(** sampling.py:23-28 sample_modes; a missing key is a KeyError. *)
Definition sample_modes (s : string) : result nat :=
  if existsb (String.eqb s) ["average"; "cell average"; "cell_average"]%string then Ok 1
  else if existsb (String.eqb s) ["poisson"; "poisson disk"; "poisson_disk"]%string then Ok 0
  else Err KeyError.

Definition omap {A B} (f : A -> result B) (x : option (result A)) : option (result B) :=
  match x with None => None | Some r => Some (a <- r ;; f a) end.

(** The sampled cloud (sampling.py:69-71, 117-119, 147-149). *)
Definition sampled_cloud (n : nbh) (ps : list point) (bs : list nat) : result pc :=
  init (P2 (dim (gcloud (ngrid n))) ps) (Some bs) (Some (bsize (nsampled n))) None.

Section Code.
  Context (dev : device) (eps : Q) (search : search_fn) (fuel : nat) (draws : nat -> nat).

  (** sampling.py:123-150 sample. *)
  Definition sample (n : nbh) (sample_mode : string) : option (result (pc * option (list nat))) :=
    match sample_modes (lower sample_mode) with
    | Err e => Some (Err e)
    | Ok mode =>
      omap (fun out =>
        let '(ps, bs, sel) := out in
        ids <- (if mode =? 0 then (l <- gather (gsidx (ngrid n)) sel ;; Ok (Some l)) else Ok None) ;;
        p <- sampled_cloud n ps bs ;;
        Ok (p, ids)) (sampling_tf dev fuel draws n mode)
    end.

  (** sampling.py:61, 107, 108: [cast_to_num_dims(radius, point_cloud)] passes the
      cloud where a number of repetitions is expected (utils.py:97-114): a
      radius for all dimensions fails to convert, a radius per dimension is
      returned unchanged. A one-element list represents both a number and a
      tensor of shape [[1]]. *)
  Definition cast_to_cloud (l : list Q) : result (list Q) :=
    match l with [_] => Err ValueError | _ => Ok l end.

  (** sampling.py:31-78 poisson_disk_sampling; the indices are returned in any
      case here ([return_ids] only drops them). It calls [sampling(..., 1)]. *)
  Definition poisson_disk_sampling (p : pc) (radius : option (list Q)) (n : option nbh)
    : option (result (pc * list nat)) :=
    let rn := match n, radius with
              | None, None => Err ValueError
              | Some n, _ => Ok n
              | None, Some r =>
                radii <- cast_to_cloud r ;; g <- mk_grid dev eps p radii ;; snd (mk_nbh search g radii None 0)
              end in
    match rn with
    | Err e => Some (Err e)
    | Ok n =>
      omap (fun out =>
        let '(ps, bs, sel) := out in
        q <- sampled_cloud n ps bs ;;
        l <- gather (gsidx (ngrid n)) sel ;;
        Ok (q, l)) (sampling_tf dev fuel draws n 1)
    end.

  (** sampling.py:81-120 cell_average_sampling. It calls [sampling(..., 0)].
      With a grid and no cell sizes [Neighborhood(grid, None)] fails to convert
      the radius. *)
  Definition cell_average_sampling (p : pc) (cell_sizes : option (list Q)) (g : option grid)
    : option (result pc) :=
    let rn := match g, cell_sizes with
              | None, None => Err ValueError
              | Some g, None => Err ValueError
              | Some g, Some c => snd (mk_nbh search g c None 0)
              | None, Some c =>
                cells <- cast_to_cloud c ;; g <- mk_grid dev eps p cells ;; snd (mk_nbh search g cells None 0)
              end in
    match rn with
    | Err e => Some (Err e)
    | Ok n =>
      omap (fun out => let '(ps, bs, _) := out in sampled_cloud n ps bs) (sampling_tf dev fuel draws n 0)
    end.
End Code.
