(** Model of the loading of the data set by the training scripts: the category
    names and the listings (modelnet40.py:41-68, modelnet40_small.py:42-69) and
    the points with their binary cache file (modelnet40.py:70-117,
    modelnet40_small.py:70-115). Printing is left out. The training and the test
    set are loaded by two copies of the same code; the definitions describe
    either. *)
From Coq Require Import String Ascii List Arith ZArith QArith Bool.
From Verif Require Import Tensor Loaders Generator.
Import ListNotations.
Local Open Scope nat_scope.

(** A Python string constant. *)
Definition chars (s : string) : text := list_ascii_of_string s.
Definition text_eqb (a b : text) : bool := list_eqb Ascii.eqb a b.

(** modelnet40.py:44, 49, 60: [line.replace('\n', '')]. Opening a text file
    with [open] also translates other line ends to newlines: the texts here are
    those after the translation. *)
Definition without_newlines (line : text) : text := filter (fun c => negb (Ascii.eqb c newline)) line.
(** modelnet40.py:41-44. *)
Definition read_names (s : text) : list text := map without_newlines (file_lines s).

(** [names.index(c)]; [None] if absent. *)
Fixpoint index_of (c : text) (names : list text) : option nat :=
  match names with
  | [] => None
  | n :: r => if text_eqb n c then Some 0 else option_map S (index_of c r)
  end.

(** modelnet40.py:46-55 and 56-65: the file name and the label of every line of
    the listing; [line[:-5]] is the category. *)
Fixpoint read_listing (data_dir : text) (names : list text) (lines : list text) : result (list (text * nat)) :=
  match lines with
  | [] => Ok []
  | l :: r =>
    let line := without_newlines l in
    let category := firstn (length line - 5) line in
    match index_of category names with
    | None => Err ValueError
    | Some k =>
      rest <- read_listing data_dir names r ;;
      Ok ((data_dir ++ category ++ chars "/" ++ line ++ chars ".txt", k) :: rest)
    end
  end.
Definition load_listing (data_dir names_text listing_text : text) : result (list (text * nat)) :=
  read_listing data_dir (read_names names_text) (file_lines listing_text).

(** The array of all points: model, point, coordinate. *)
Notation array := (list (list (list Q))).

(** Assigning an array of rows to a slot of [n] rows of [w] numbers
    ([train_data_points[i] = points], modelnet40.py:82-86): numpy broadcasts rows
    of one number and single rows and rejects other shapes. *)
Definition widen (w : nat) (row : list Q) : result (list Q) :=
  if length row =? w then Ok row else match row with [x] => Ok (repeat x w) | _ => Err ValueError end.
Definition assign_block (n w : nat) (rows : list (list Q)) : result (list (list Q)) :=
  match rows with
  | [] => Err ValueError
  | _ => rs <- all_rows (widen w) rows ;; assign_rows n rs
  end.

(** The cache file: a data set, or a file from whose reading an exception is
    raised (left behind by an interrupted run). *)
Inductive stored := Dataset (a : array) | Broken (e : err).
(** The directory of the cache and the cache file in it. *)
Record disk := Disk { tmp_dir : bool; cache : option stored }.
(** The two scripts: modelnet40_small.py and modelnet40.py. *)
Inductive script := Small | Large.

Section Load.
  Variable num : text -> option Q.
  Variable fs : text -> option text.

  (** modelnet40.py:78-90: the loop from file number [i] on. [memory] is the
      rest of the array made by [np.empty], whose content is arbitrary. *)
  Fixpoint fill (quick_test : bool) (points_per_file i : nat) (files : list text) (memory : array) : result array :=
    match files, memory with
    | f :: files', _ :: memory' =>
      l <- load_to_numpy num fs (Path f) (chars ",") 3 (Some points_per_file) ;;
      rows <- assign_block points_per_file 3 (fst l) ;;
      if quick_test && (100 <? i) then Ok (rows :: memory')
      else rest <- fill quick_test points_per_file (S i) files' memory' ;; Ok (rows :: rest)
    | _, _ => Ok memory
    end.

  (** Reading the cache: modelnet40.py:73-76; modelnet40_small.py:71-75 takes
      the first [points_per_file] points of every model. *)
  Definition read_cache (sc : script) (points_per_file : nat) (s : stored) : result array :=
    match s with
    | Broken e => Err e
    | Dataset a => Ok (match sc with Small => map (firstn points_per_file) a | Large => a end)
    end.

  (** One run: the states of the disk, one after the other, and the points.
      modelnet40.py:70-71 makes the directory, modelnet40_small.py does not; the
      cache is opened for writing, which makes a file without content, and is
      readable once it is closed (modelnet40.py:92-94). [damage] is the
      exception that reading the unfinished file raises. *)
  Definition run (sc : script) (quick_test : bool) (points_per_file : nat) (files : list text) (memory : array) (damage : err)
    (d : disk) : list disk * result array :=
    let d1 := match sc with Large => Disk true (cache d) | Small => d end in
    match cache d1 with
    | Some s => ([d; d1], read_cache sc points_per_file s)
    | None =>
      match fill quick_test points_per_file 0 files memory with
      | Err e => ([d; d1], Err e)
      | Ok a =>
        if tmp_dir d1 then ([d; d1; Disk true (Some (Broken damage)); Disk true (Some (Dataset a))], Ok a)
        else ([d; d1], Err FileNotFound)
      end
    end.

  (** A run that ends by itself, or that is interrupted while the disk is in its
      state number [k]. *)
  Record event := Event { ev_quick : bool; ev_points : nat; ev_memory : array; ev_damage : err; ev_stop : option nat }.
  Definition states (sc : script) (files : list text) (d : disk) (e : event) : list disk :=
    fst (run sc (ev_quick e) (ev_points e) files (ev_memory e) (ev_damage e) d).
  Definition after (sc : script) (files : list text) (d : disk) (e : event) : disk :=
    let l := states sc files d e in
    match ev_stop e with None => last l d | Some k => nth k l (last l d) end.
  Definition history (sc : script) (files : list text) (d : disk) (events : list event) : disk :=
    fold_left (after sc files) events d.
End Load.
