(** Model of the densities: compute_pdf_tf and
    compute_pdf_inside_neighborhoods_tf (custom_ops_tf.py:330-420) and the
    density functions of Neighborhood.py. Real numbers stand for floats. *)
From Coq Require Import List Arith ZArith QArith Reals Qreals Bool.
From Verif Require Import Tensor PointCloud Grid Neighbors Neighborhood.
Import ListNotations.
Local Open Scope nat_scope.

Definition rsum (l : list R) : R := fold_right Rplus 0%R l.
Definition rprod (l : list R) : R := fold_right Rmult 1%R l.

(** Neighborhood.py:45-49 KDEMode; the values are 0, 1, 2. *)
Inductive kde_mode := KConstant | KNumPoints | KNoPdf.

(** [tf.exp(-tf.pow(x, 2) / 2) / tf.sqrt(2 * _pi)], custom_ops_tf.py:376, 413. *)
Definition gauss (x : R) : R := (exp (- (x ^ 2) / 2) / sqrt (2 * PI))%R.

(** utils.py:97-114 cast_to_num_dims; a scalar is a one-element list. *)
Definition rcast (D : nat) (l : list R) : list R :=
  match l with [x] => repeat x D | _ => l end.

(** [bandwidth * neighborhood._radii] reshaped to one row of [D] entries
    (custom_ops_tf.py:373, 402); other lengths cannot be broadcast. *)
Definition rel_bandwidth (D : nat) (bandwidth : list R) (radii : list Q) : result (list R) :=
  if (length bandwidth =? D) && (length radii =? D)
  then Ok (map (fun d => (nth d bandwidth 0 * Q2R (nth d radii 0%Q))%R) (seq 0 D))
  else Err InvalidArgument.

Section Ops.
  Context (dev : device).

  (** custom_ops_tf.py:388-420 compute_pdf_tf; [mode] is not used. *)
  Definition compute_pdf_tf (n : nbh) (bandwidth : list R) (mode : kde_mode) : result (list R) :=
    let D := dim (gcloud (ngrid n)) in
    rel <- rel_bandwidth D bandwidth (nradii n) ;;
    let points := map (fun p => map (fun d => (Q2R (nth d p 0%Q) / nth d rel 0)%R) (seq 0 D)) (gspts (ngrid n)) in
    a <- gather points (map fst (nnbs n)) ;;
    b <- gather points (map snd (nnbs n)) ;;
    let vals := map (fun q => rprod (map (fun d => gauss (nth d (fst q) 0 - nth d (snd q) 0)%R) (seq 0 D)))
                    (combine a b) in
    s <- unsorted_segment dev rsum vals (map snd (nnbs n)) (length points) ;;
    Ok (map (fun x => (x / rprod bandwidth)%R) s).

  (** custom_ops_tf.py:330-385 compute_pdf_inside_neighborhoods_tf. The ranges
      have to be a vector ([nbh_ranges[0:-1]]); negative sizes cannot be
      repeated; with an empty list [max_num_neighbors] would be int32-min (out
      of scope). *)
  Definition compute_pdf_inside (n : nbh) (bandwidth : list R) (mode : kde_mode) : result (list R) :=
    match rshape (nranges n) with
    | [_] =>
      let D := dim (gcloud (ngrid n)) in
      let points := gspts (ngrid n) in
      let nbs := nnbs n in
      let ends := rdata (nranges n) in
      let starts := 0%Z :: removelast ends in
      let zsizes := map (fun p => (fst p - snd p)%Z) (combine ends starts) in
      if negb (forallb (fun z => 0 <=? z)%Z zsizes) then Err InvalidArgument else
      if (match ends with [] => true | _ => false end) then Err OutOfScope else
      let sizes := map Z.to_nat zsizes in
      let num := length nbs in
      let V := list_max0 sizes in
      sizes_per_nb <- tf_repeat sizes sizes ;;
      ind1 <- tf_repeat (map fst nbs) sizes_per_nb ;;
      starts_per_nb <- tf_repeat starts sizes ;;
      if negb (length starts_per_nb =? num) then Err InvalidArgument else
      (* indices_tensor [num, V], row by row; then the entries under the mask *)
      let indices := concat (map (fun s => map (fun j => (Z.of_nat j + s)%Z) (seq 0 V)) starts_per_nb) in
      let ind2 := mask_select (sequence_mask sizes_per_nb V) indices in
      if negb (forallb (fun z => 0 <=? z)%Z ind2) then Err InvalidArgument else
      nb2 <- gather (map fst nbs) (map Z.to_nat ind2) ;;
      p1 <- gather points ind1 ;;
      p2 <- gather points nb2 ;;
      rel <- rel_bandwidth D bandwidth (nradii n) ;;
      let vals := map (fun q => rprod (map (fun d => gauss ((Q2R (nth d (fst q) 0%Q) - Q2R (nth d (snd q) 0%Q)) / nth d rel 0)%R)
                                        (seq 0 D)))
                      (combine p1 p2) in
      nb_id <- tf_repeat (seq 0 num) sizes_per_nb ;;
      s <- unsorted_segment dev rsum vals nb_id num ;;
      Ok (map (fun x => (x / rprod bandwidth)%R) s)
    | _ => Err InvalidArgument
    end.
End Ops.

(** A density op: compute_pdf_tf or the wrapper of the CUDA op. *)
Definition kde_fn : Type := nbh -> list R -> kde_mode -> result (list R).

(** A Neighborhood object with its density cache (Neighborhood.py:253). *)
Record dnbh := DNbh { dn : nbh; dpdf : option (list R) }.

Section Code.
  Context (dev : device) (eps : Q) (search : search_fn) (kde : kde_fn).

  (** Neighborhood.py:257-293 compute_pdf. The cache is assigned before the
      normalisation. *)
  Definition compute_pdf (x : dnbh) (bandwidth : list R) (mode : kde_mode) (normalize : bool)
    : dnbh * result unit :=
    let n := dn x in
    let bw := rcast (dim (nsampled n)) bandwidth in
    let r :=
      match mode with
      | KNoPdf => Ok (repeat 1%R (length (nnbs n)))
      | _ =>
        m <- (if nequal n then Ok n else snd (mk_nbh search (ngrid n) (nradii n) None 0)) ;;
        pdf <- kde m bw mode ;;
        gather pdf (map fst (nnbs n))
      end in
    match r with
    | Err e => (x, Err e)
    | Ok pdf =>
      if normalize then
        match (norm <- unsorted_segment dev rsum (repeat 1%R (length pdf)) (map snd (nnbs n)) (length (pts (nsampled n))) ;;
               f <- gather norm (map snd (nnbs n)) ;;
               Ok (map (fun q => (fst q / snd q)%R) (combine pdf f))) with
        | Ok v => (DNbh n (Some v), Ok tt)
        | Err e => (DNbh n (Some pdf), Err e)
        end
      else (DNbh n (Some pdf), Ok tt)
    end.

  (** Neighborhood.py:295-311 get_pdf. *)
  Definition get_pdf (x : dnbh) (bandwidth : list R) (mode : kde_mode) (normalize : bool)
    : dnbh * result (list R) :=
    match dpdf x with
    | Some v => (x, Ok v)
    | None =>
      let '(x', r) := compute_pdf x bandwidth mode normalize in
      (x', _ <- r ;; match dpdf x' with Some v => Ok v | None => Err OutOfScope end)
    end.

  (** Neighborhood.py:107-152 density_estimation. The call of compute_pdf with
      six arguments raises TypeError (the op takes a neighborhood, a bandwidth
      and a mode). *)
  Definition density_estimation (p : pc) (bandwidth : list R) (scaling : list Q) (mode : kde_mode)
    (normalize : bool) : result (list R) :=
    pdf <- match mode with
           | KNoPdf => Ok (repeat 1%R (length (pts p)))
           | _ =>
             let sc := bcast (dim p) scaling in
             g <- mk_grid dev eps p sc ;;
             _ <- snd (compute_neighborhoods search g sc None 0 true) ;;
             Err TypeError
           end ;;
    Ok (if normalize then map (fun x => (x / INR (length (pts p)))%R) pdf else pdf).

  (** [tf.math.segment_sum(data, ids)]: the ids have to be sorted; the CPU
      kernel checks it, on the GPU unsorted ids are out of scope. The number of
      segments is the last id plus one. *)
  Definition segment_sum (data : list R) (ids : list nat) : result (list R) :=
    if negb (length data =? length ids) then Err InvalidArgument else
    if negb (forallb (fun q => fst q <=? snd q) (combine ids (tl ids)))
    then Err (match dev with CPU => InvalidArgument | GPU => OutOfScope end)
    else Ok (match ids with
             | [] => []
             | _ => map (fun s => rsum (segment s data ids)) (seq 0 (S (last ids 0)))
             end).

  (** Neighborhood.py:155-201 density_estimation_in_neighborhoods. *)
  Definition density_estimation_in_neighborhoods (p : pc) (neighbors : list (nat * nat))
    (bandwidth : list R) (scaling : list Q) (mode : kde_mode) (normalize : bool) : result (list R) :=
    pdf <- match mode with
           | KNoPdf => Ok (repeat 1%R (length neighbors))
           | _ =>
             d <- density_estimation p (rcast (dim p) bandwidth) (bcast (dim p) scaling) mode false ;;
             gather d (map fst neighbors)
           end ;;
    if normalize then
      norm <- segment_sum (repeat 1%R (length pdf)) (map snd neighbors) ;;
      f <- gather norm (map snd neighbors) ;;
      Ok (map (fun q => (fst q / snd q)%R) (combine pdf f))
    else Ok pdf.
End Code.
