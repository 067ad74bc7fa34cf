(** Names compared without regard to upper and lower case (ASCII). *)
From Coq Require Import String Ascii List Arith.
Import ListNotations.
Local Open Scope nat_scope.

Inductive same_letter : ascii -> ascii -> Prop :=
| same_refl c : same_letter c c
| same_upper k : k < 26 -> same_letter (ascii_of_nat (65 + k)) (ascii_of_nat (97 + k))
| same_lower k : k < 26 -> same_letter (ascii_of_nat (97 + k)) (ascii_of_nat (65 + k)).
Fixpoint same_text (s t : string) : Prop :=
  match s, t with
  | EmptyString, EmptyString => True
  | String a s', String b t' => same_letter a b /\ same_text s' t'
  | _, _ => False
  end.

(** [s] is one of the names. *)
Definition means (s : string) (names : list string) : Prop := exists n, In n names /\ same_text s n.
