(** * The usual rules for [+ - * / mod ^] *)
From Coq Require Import List String.
From Verif Require Import ModelBase.
Import ListNotations.
Local Open Scope string_scope.

Definition usual_operators : list string := ["+"; "-"; "*"; "/"; "mod"; "^"].
Definition level (s : string) : nat :=
  if String.eqb s "+" then 1 else if String.eqb s "-" then 1 else if String.eqb s "^" then 3 else 2.
(** [a s1 b s2 c] is read as [(a s1 b) s2 c]; otherwise as [a s1 (b s2 c)]. *)
Definition usual_left (s1 s2 : string) : bool :=
  Nat.ltb (level s2) (level s1) || (Nat.eqb (level s1) (level s2) && negb (String.eqb s1 "^")).
