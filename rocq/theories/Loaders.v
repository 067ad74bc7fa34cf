(** Model of pylib/io/points.py. *)
From Coq Require Import Ascii List Arith ZArith QArith Bool.
From Verif Require Import Tensor.
Import ListNotations.
Local Open Scope nat_scope.

(** Text as a list of characters. *)
Notation text := (list ascii).
Definition newline : ascii := ascii_of_nat 10.

(** Iterating over a [tf.io.gfile.GFile] opened for reading (points.py:51, 99):
    the lines with their newline; the last one may lack it. *)
Fixpoint file_lines (s : text) : list text :=
  match s with
  | [] => []
  | c :: r =>
    if Ascii.eqb c newline then [c] :: file_lines r
    else match file_lines r with [] => [[c]] | l :: ls => (c :: l) :: ls end
  end.

(** Python's [str.split(delimiter)] for a non-empty delimiter; [skip] counts
    the characters of a delimiter still to be passed over. *)
Fixpoint prefix_of (d s : text) : bool :=
  match d, s with
  | [], _ => true
  | a :: d', b :: s' => Ascii.eqb a b && prefix_of d' s'
  | _, [] => false
  end.
Fixpoint split_at (d : text) (skip : nat) (s : text) : list text :=
  match s with
  | [] => [[]]
  | c :: r =>
    match skip with
    | S k => split_at d k r
    | 0 => if prefix_of d s then [] :: split_at d (length d - 1) r
           else match split_at d 0 r with [] => [[c]] | w :: ws => (c :: w) :: ws end
    end
  end.

(** A [filename] argument: a string or another Python object. *)
Inductive file_arg := Path (p : text) | NotAString.

(** The converted rows have equal lengths. *)
Definition rectangular {A} (rows : list (list A)) : bool :=
  match rows with [] => true | r :: rs => forallb (fun r' => length r' =? length r) rs end.
Fixpoint all_ok {A B} (e : err) (f : A -> option B) (l : list A) : result (list B) :=
  match l with
  | [] => Ok []
  | a :: l' => match f a with None => Err e | Some b => r <- all_ok e f l' ;; Ok (b :: r) end
  end.
Fixpoint all_rows {A B} (f : A -> result B) (l : list A) : result (list B) :=
  match l with
  | [] => Ok []
  | a :: l' => b <- f a ;; r <- all_rows f l' ;; Ok (b :: r)
  end.

Section Load.
  (** The number a string stands for, [None] if it is not a number
      ([tf.strings.to_number] and numpy's conversion; rounding to the requested
      type is not modelled). *)
  Variable num : text -> option Q.
  (** The file system: the content of a path, if it exists. *)
  Variable fs : text -> option text.

  (** [tf.convert_to_tensor] on a list of lists of strings followed by
      [tf.strings.to_number] (points.py:57-60). Ragged lists are rejected; a
      list without any string becomes a float tensor, which [to_number]
      rejects. *)
  Definition tf_numbers (rows : list (list text)) : result (list (list Q)) :=
    if negb (rectangular rows) then Err ValueError
    else match concat rows with
         | [] => Err InvalidArgument
         | _ => all_rows (all_ok InvalidArgument num) rows
         end.
  (** [np.array(rows, dtype=dtype)] (points.py:109-110). *)
  Definition np_numbers (rows : list (list text)) : result (list (list Q)) :=
    if negb (rectangular rows) then Err ValueError else all_rows (all_ok ValueError num) rows.

  (** points.py:52, 101: [line[:-1].split(delimiter)]; an empty delimiter
      raises. *)
  Definition line_elements (delimiter : text) (line : text) : result (list text) :=
    match delimiter with [] => Err ValueError | _ => Ok (split_at delimiter 0 (removelast line)) end.
  Definition read_lines (delimiter : text) (lines : list text) : result (list (list text)) :=
    all_rows (line_elements delimiter) lines.
  (** points.py:53-55, 102-104: a line contributes features if it has more than
      three entries, whatever [dimension] is. *)
  Definition coordinates (dimension : nat) (rows : list (list text)) : list (list text) :=
    map (firstn dimension) rows.
  Definition extras (dimension : nat) (rows : list (list text)) : list (list text) :=
    map (skipn dimension) (filter (fun r => 3 <? length r) rows).

  (** points.py:23-65, load_points_from_file_to_tensor. [dimension] is a natural
      number. *)
  Definition load_to_tensor (filename : file_arg) (delimiter : text) (dimension : nat)
    : result (list (list Q) * list (list Q)) :=
    match filename with
    | NotAString => Err TypeError
    | Path p =>
      match fs p with
      | None => Err FileNotFound
      | Some s =>
        rows <- read_lines delimiter (file_lines s) ;;
        points <- tf_numbers (coordinates dimension rows) ;;
        features <- tf_numbers (extras dimension rows) ;;
        Ok (points, features)
      end
    end.

  (** points.py:68-115, load_points_from_file_to_numpy. The test of lines
      100-107 stops at once if [max_num_points] is None. *)
  Definition load_to_numpy (filename : file_arg) (delimiter : text) (dimension : nat)
    (max_num_points : option nat) : result (list (list Q) * list (list Q)) :=
    match filename with
    | NotAString => Err TypeError
    | Path p =>
      match fs p with
      | None => Err FileNotFound
      | Some s =>
        let lines := match max_num_points with None => [] | Some k => firstn k (file_lines s) end in
        rows <- read_lines delimiter lines ;;
        points <- np_numbers (coordinates dimension rows) ;;
        features <- np_numbers (extras dimension rows) ;;
        Ok (points, features)
      end
    end.

  (** [tf.reshape(t, shape)] for a tensor of [total] entries: the resulting
      shape; at most one entry is -1. *)
  Definition shape_prod (s : list Z) : Z := fold_right Z.mul 1%Z s.
  Definition new_shape (total : nat) (s : list Z) : result (list nat) :=
    if existsb (fun z => z <? -1)%Z s then Err InvalidArgument
    else match length (filter (fun z => z =? -1)%Z s) with
    | 0 => if (shape_prod s =? Z.of_nat total)%Z then Ok (map Z.to_nat s) else Err InvalidArgument
    | 1 =>
      let known := shape_prod (filter (fun z => negb (z =? -1))%Z s) in
      if (known =? 0)%Z then Err InvalidArgument
      else if (Z.of_nat total mod known =? 0)%Z
      then Ok (map (fun z => if (z =? -1)%Z then Z.to_nat (Z.of_nat total / known) else Z.to_nat z) s)
      else Err InvalidArgument
    | _ => Err InvalidArgument
    end.
  (** Reshaping a stack of [[V, D]] tensors to [batch_shape + [V, D]]. *)
  Definition reshape_stack {A} (elems : list (list A)) (batch_shape : list Z) (V D : nat) : result (padded A) :=
    s <- new_shape (length elems * V * D) (batch_shape ++ [Z.of_nat V; Z.of_nat D]) ;;
    Ok (Padded (firstn (length batch_shape) s) V (concat elems)).

  (** points.py:157-165: padding with rows of [width] zeros up to [V] rows;
      [tf.concat] requires rows of that width. *)
  Definition pad_rows (width V : nat) (size : nat) (rows : list (list Q)) : result (list (list Q)) :=
    if forallb (fun r => length r =? width) rows
    then Ok (rows ++ repeat (repeat 0%Q width) (V - size)) else Err InvalidArgument.
  (** [tf.stack]: all tensors have [V] rows. *)
  Definition stackable {A} (V : nat) (elems : list (list A)) : bool := forallb (fun e => length e =? V) elems.

  Definition shape_is (s t : list Z) : bool := list_eqb Z.eqb s t.

  (** points.py:118-178, load_batch_of_points. [point_dimension] is not handed
      to the loader, whose default is 3 (lines 149-150). *)
  Definition load_batch_of_points (filenames : list file_arg) (batch_shape : list Z) (delimiter : text)
    (point_dimension : nat) : result (padded (list Q) * padded (list Q) * itensor) :=
    let batch_size := length filenames in
    if negb (shape_is batch_shape [-1]%Z) && negb (shape_prod batch_shape =? Z.of_nat batch_size)%Z
    then Err ValueError
    else
      loaded <- all_rows (fun f => load_to_tensor f delimiter 3) filenames ;;
      match loaded with
      | [] => Err IndexError
      | (_, features0) :: _ =>
        let sizes := map (fun l => length (fst l)) loaded in
        let V := list_max0 sizes in
        let feature_dimension := length (hd [] features0) in
        points <- all_rows (fun l => pad_rows point_dimension V (length (fst l)) (fst l)) loaded ;;
        features <- all_rows (fun l => pad_rows feature_dimension V (length (fst l)) (snd l)) loaded ;;
        if negb (stackable V points && stackable V features) then Err InvalidArgument else
        points' <- reshape_stack points batch_shape V point_dimension ;;
        features' <- reshape_stack features batch_shape V feature_dimension ;;
        s <- new_shape batch_size batch_shape ;;
        Ok (points', features', ITensor s sizes)
      end.
End Load.

(** points.py:181-222, load_batch_of_meshes. [load] stands for
    tensorflow_graphics' mesh loader: the vertices of a file, rows of three
    numbers. An empty list of files is not described. *)
Definition load_batch_of_meshes (load : file_arg -> result (list (list Q))) (filenames : list file_arg)
  (batch_shape : list Z) : result (padded (list Q) * itensor) :=
  loaded <- all_rows load filenames ;;
  match loaded with
  | [] => Err OutOfScope
  | _ =>
    let sizes := map (@length _) loaded in
    let V := list_max0 sizes in
    points <- all_rows (fun l => pad_rows 3 V (length l) l) loaded ;;
    points' <- reshape_stack points batch_shape V 3 ;;
    s <- new_shape (length filenames) batch_shape ;;
    Ok (points', ITensor s sizes)
  end.
