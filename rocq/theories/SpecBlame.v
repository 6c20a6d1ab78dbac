(** * Specification: which operation an error comes from *)
From Coq Require Import List NArith Bool String.
From Verif Require Import ModelBase ModelContext ModelText ModelEvaluator ModelNum SpecTokens.
Import ListNotations.

(** The operation named by [t], called on some arguments in some state, fails with [k], leaving the state [w']. *)
Definition raises {V W} (c : ctx V W) (t : token V) (k : errkind) (w' : W) : Prop :=
  match t with
  | TFunction f => exists fn args w, get_function c f = Some fn /\ fn_call fn args w = (Err k, w')
  | TBinary o => exists fn x y w, get_binary c o = Some fn /\ bf_call fn x y w = (Err k, w')
  | TUnary u => exists fn x w, get_unary c u = Some fn /\ uf_call fn x w = (Err k, w')
  | _ => False
  end.

(** What the names may fail with. *)
Definition table := list (list string * list errkind).
Record blame := Blame { b_binary : table; b_unary : table; b_functions : table }.
Definition entry (E : env) (T : table) (name : str) (k : errkind) : Prop :=
  exists names kinds s, In (names, kinds) T /\ In s names /\ eq_ignore_case E name (lit s) = true /\ In k kinds.
Definition charged {V} (E : env) (B : blame) (t : token V) (k : errkind) : Prop :=
  match t with
  | TBinary o => entry E (b_binary B) o k
  | TUnary u => entry E (b_unary B) u k
  | TFunction f => entry E (b_functions B) f k
  | _ => False
  end.

(** The checked and the unchecked contexts over machine integers and doubles. *)
Definition math_functions (docs : bool) : list string :=
  ["sqrt"; "ln"; "log"; "exp"; "floor"; "ceil"; if docs then "trunc" else "truncate"; "round"; if docs then "signum" else "sign"; "to_radians"; "to_degrees";
   "sin"; "cos"; "tan"; "csc"; "sec"; "cot"; "asin"; "acos"; "atan"; "acsc"; "asec"; "acot"; "sinh"; "cosh"; "tanh"; "csch"; "sech"; "coth";
   "asinh"; "acosh"; "atanh"; "acsch"; "asech"; "acoth"]%string.
Definition checked_blame (docs : bool) : blame := Blame
  [(["+"; "-"; "*"; "^"], [Overflow]); (["/"; "mod"], [DivisionByZero; Overflow])]%string
  [(["-"], [Overflow]); (["!"], [NegativeValue; Overflow])]%string
  [(["sum"; "product"; "avg"; "abs"], [InvalidArgumentCount; Overflow]); (["max"; "min"], [InvalidArgumentCount]);
   (["random"], [InvalidArgumentCount; NegativeValue; InvalidInput; NAN; Overflow]);
   (math_functions docs, [InvalidArgumentCount; NAN; Overflow])]%string.
Definition unchecked_blame : blame := Blame
  [(["/"; "mod"], [DivisionByZero]); (["^"], [Overflow])]%string
  [(["!"], [NegativeValue; Overflow])]%string
  [(["sum"; "product"; "avg"; "max"; "min"], [InvalidArgumentCount]);
   (["random"], [InvalidArgumentCount; NegativeValue; InvalidInput; NAN; Overflow]);
   (math_functions true, [InvalidArgumentCount; NAN; Overflow])]%string.
(** The complex context. *)
Definition complex_functions : list string :=
  ["sqrt"; "ln"; "exp"; "sin"; "cos"; "tan"; "csc"; "sec"; "cot"; "asin"; "acos"; "atan"; "acsc"; "asec"; "acot"; "sinh"; "cosh"; "tanh"; "csch"; "sech"; "coth";
   "asinh"; "acosh"; "atanh"; "acsch"; "asech"; "acoth"]%string.
Definition complex_blame : blame := Blame
  [(["/"; "mod"], [DivisionByZero])]%string
  []
  [("sum" :: "avg" :: "product" :: complex_functions, [InvalidArgumentCount]); (["log"], [InvalidArgumentCount; InvalidInput]);
   (["random"], [InvalidArgumentCount; NegativeValue; InvalidInput])]%string.
(** The decimal context. *)
Definition decimal_functions : list string :=
  ["cbrt"; "sqrt"; "ln"; "log"; "exp"; "to_radians"; "to_degrees"; "sin"; "cos"; "tan"; "csc"; "sec"; "cot"; "asin"; "acos"; "atan"; "acsc"; "asec"; "acot";
   "sinh"; "cosh"; "tanh"; "csch"; "sech"; "coth"; "asinh"; "acosh"; "atanh"; "acsch"; "asech"; "acoth"]%string.
Definition decimal_blame : blame := Blame
  [(["+"; "-"; "*"; "/"; "^"; "mod"], [Overflow])]%string
  [(["!"], [Overflow])]%string
  [(["sum"; "avg"; "product"; "max"; "min"; "ceil"; "floor"; "truncate"; "round"], [InvalidArgumentCount]);
   (["random"], [InvalidArgumentCount; NegativeValue; InvalidInput; NAN; Overflow]);
   (decimal_functions, [InvalidArgumentCount; Overflow])]%string.

(** Number types whose own operators raise no errors (they may panic). *)
Definition quiet {V} (n : num V) : Prop :=
  (forall a b k, n_add n a b <> Err k) /\ (forall a b k, n_sub n a b <> Err k) /\ (forall a b k, n_mul n a b <> Err k) /\
  (forall a b k, n_div n a b <> Err k) /\ (forall a b k, n_rem n a b <> Err k) /\ (forall a k, n_neg n a <> Err k).
(** The operators and functions of [c] are those of [d]; variables, constants and settings may be others. *)
Definition same_operations {V W} (c d : ctx V W) : Prop :=
  (forall q, get_binary c q = get_binary d q) /\ (forall q, get_unary c q = get_unary d q) /\ (forall q, get_function c q = get_function d q).
(** [t] is among [toks], or is the multiplication implied between two of them. *)
Definition present {V W} (c : ctx V W) (toks : list (token V)) (t : token V) : Prop :=
  In t toks \/ t = TBinary star /\ implicit_mul (cfg c) = true /\ juxtapositions toks <> 0%nat.
(** The two kinds that the evaluator itself uses. *)
Definition malformed (k : errkind) : Prop := k = InvalidInput \/ k = InvalidExpression.
