(** * Specification: token sequences that mean the same in two contexts *)
From Coq Require Import List NArith Bool.
From Verif Require Import ModelBase ModelContext.
Import ListNotations.

(** Two tokens mean the same, the first in [c] and the second in [c']: they are of the same kind, and the entries found
    under their names are the same. *)
Inductive alike {V W} (c c' : ctx V W) : token V -> token V -> Prop :=
| A_number : forall v, alike c c' (TNumber v) (TNumber v)
| A_variable : forall x y, get_variable c x = get_variable c' y -> alike c c' (TVariable x) (TVariable y)
| A_constant : forall x y, get_constant c x = get_constant c' y -> alike c c' (TConstant x) (TConstant y)
| A_function : forall x y, get_function c x = get_function c' y -> alike c c' (TFunction x) (TFunction y)
| A_binary : forall x y, get_binary c x = get_binary c' y -> alike c c' (TBinary x) (TBinary y)
| A_unary : forall x y, get_unary c x = get_unary c' y -> alike c c' (TUnary x) (TUnary y)
| A_arg_count : forall n, alike c c' (TArgCount n) (TArgCount n)
| A_open : forall s, alike c c' (TOpen s) (TOpen s)
| A_close : forall s, alike c c' (TClose s) (TClose s)
| A_unknown : forall x y, alike c c' (TUnknown x) (TUnknown y)
| A_comma : alike c c' TComma TComma.
