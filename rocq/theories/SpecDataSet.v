(** Specification vocabulary for the loading of the data set. *)
From Coq Require Import String Ascii List Arith ZArith QArith.
From Verif Require Import Tensor Loaders SpecLoaders DataSet.
Import ListNotations.
Local Open Scope nat_scope.

(** A text file with the given lines; the newline after the last line may be
    missing if that line is not empty. *)
Definition lines_of (ts : list (list ascii)) : list ascii := concat (map (fun t => t ++ [line_end]) ts).
Definition text_file (ts : list (list ascii)) (s : list ascii) : Prop :=
  Forall (fun t => ~ In line_end t) ts /\ (s = lines_of ts \/ (last ts [] <> [] /\ s ++ [line_end] = lines_of ts)).

(** A model: its category, and an underscore with a number of four digits, or
    any other five characters. *)
Definition model_name (m : list ascii * list ascii) : list ascii := fst m ++ snd m.
(** [k] is the position of the category in the list of names, the first one if
    it occurs twice. *)
Definition label_of (names : list (list ascii)) (c : list ascii) (k : nat) : Prop :=
  nth_error names k = Some c /\ forall i, i < k -> nth_error names i <> Some c.

(** The files hold tables of three or more columns, of at least [n] points. *)
Definition model_files (num : list ascii -> option Q) (fs : list ascii -> option (list ascii)) (n : nat)
  (files : list (list ascii)) (tables : list (list (list Q))) : Prop :=
  Forall2 (fun f t => exists w, 3 <= w /\ holds num fs (list_ascii_of_string ",") w f t) files tables /\
  Forall (fun t => n <= length t) tables.

(** The first [n] points of every model. *)
Definition first_points (n : nat) (tables : list (list (list Q))) : list (list (list Q)) :=
  map (fun t => firstn n (xyz t)) tables.

(** An earlier run that does no harm to runs with [n] points per file: no quick
    test (of more than 102 files), at least [n] points per file (exactly [n] for
    modelnet40.py), not interrupted while it writes the cache. *)
Definition harmless (sc : script) (n : nat) (files : list (list ascii)) (e : event) : Prop :=
  length (ev_memory e) = length files /\ (ev_quick e = true -> length files <= 102) /\
  ev_stop e <> Some 2 /\ match sc with Large => ev_points e = n | Small => n <= ev_points e end.
