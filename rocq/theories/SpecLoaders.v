(** What the files of the loaders contain (specification). *)
From Coq Require Import Ascii List Arith ZArith QArith.
Import ListNotations.
Local Open Scope nat_scope.

Definition line_end : ascii := ascii_of_nat 10.
(** The entries of a line, separated by the delimiter. *)
Fixpoint separated (d : list ascii) (entries : list (list ascii)) : list ascii :=
  match entries with
  | [] => []
  | [e] => e
  | e :: r => e ++ d ++ separated d r
  end.
(** A file: every line ends with a newline. *)
Definition written (d : list ascii) (lines : list (list (list ascii))) : list ascii :=
  concat (map (fun l => separated d l ++ [line_end]) lines).
(** The same file without its last character, the final newline. *)
Definition written_open (d : list ascii) (lines : list (list (list ascii))) : list ascii :=
  removelast (written d lines).

(** An entry the delimiter can be told apart from. *)
Definition plain (d e : list ascii) : Prop := forall c, In c e -> c <> line_end /\ ~ In c d.
(** The entries stand for the numbers. *)
Definition reads (num : list ascii -> option Q) (lines : list (list (list ascii))) (values : list (list Q)) : Prop :=
  Forall2 (Forall2 (fun e v => num e = Some v)) lines values.
(** A table of [w] columns written as text. *)
Definition table (num : list ascii -> option Q) (d : list ascii) (w : nat)
  (lines : list (list (list ascii))) (values : list (list Q)) : Prop :=
  d <> [] /\ ~ In line_end d /\ 0 < w /\ Forall (fun l => length l = w) lines /\
  Forall (Forall (plain d)) lines /\ reads num lines values.

(** The rows followed by zero rows, [V] in total. *)
Definition with_zeros (D V : nat) (rows : list (list Q)) : list (list Q) :=
  rows ++ repeat (repeat 0%Q D) (V - length rows).

(** The batch shape argument asks for shape [sh]. *)
Definition asks_for (batch_shape : list Z) (sh : list nat) (F : nat) : Prop :=
  batch_shape = [-1]%Z /\ sh = [F] \/ batch_shape = map Z.of_nat sh /\ fold_right Nat.mul 1 sh = F.
(** File [p] holds the table [rows] of [w] columns as list ascii. *)
Definition holds (num : list ascii -> option Q) (fs : list ascii -> option (list ascii)) (d : list ascii) (w : nat) (p : list ascii) (rows : list (list Q)) : Prop :=
  exists lines, table num d w lines rows /\ fs p = Some (written d lines).
(** The first three columns, and the others. *)
Definition xyz (rows : list (list Q)) : list (list Q) := map (firstn 3) rows.
Definition rest (rows : list (list Q)) : list (list Q) := map (skipn 3) rows.
