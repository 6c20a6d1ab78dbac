(** * Specification: numerals *)
From Coq Require Import List NArith ZArith Bool String.
From Verif Require Import ModelBase.
Import ListNotations.
Local Open Scope Z_scope.

(** [digits radix s v]: the string of digits [s], possibly empty, is worth [v] in the base [radix] (at most ten). *)
Inductive digits (radix : Z) : str -> Z -> Prop :=
| digits_none : digits radix [] 0
| digits_more : forall s v d c, digits radix s v -> 0 <= d < radix -> Z.of_N c = 48 + d -> digits radix (s ++ [c]) (radix * v + d).

(** [numeral radix is_signed s v]: [s] is an optional sign and at least one digit, worth [v]. A minus sign only if
    [is_signed]. *)
Inductive numeral (radix : Z) (is_signed : bool) : str -> Z -> Prop :=
| numeral_plain : forall s v, digits radix s v -> s <> [] -> numeral radix is_signed s v
| numeral_plus : forall s v, digits radix s v -> s <> [] -> numeral radix is_signed (43%N :: s) v
| numeral_minus : forall s v, digits radix s v -> s <> [] -> is_signed = true -> numeral radix is_signed (45%N :: s) (- v).

(** How the tokens of arithmetic expressions (SpecOps) are written: numbers with decimal digits, operators and grouping
    symbols as they are. *)
From Verif Require Import ModelContext.
Definition plain_word (t : token Z) (s : str) : Prop :=
  match t with
  | TNumber v => digits 10 s v /\ s <> []
  | TBinary o => s = o
  | TUnary u => s = u
  | TOpen k | TClose k => s = [k]
  | _ => False
  end.
