(** * Errors and tokens as the API shows them: /repo/prexel/src/error.rs and token.rs *)
From Coq Require Import List NArith ZArith Bool Arith String.
From Verif Require Import ModelBase ModelContext ModelServer.
Import ListNotations.

(** error.rs 5-25. A boxed [std::error::Error] is a value of a type [X] with a way to display it; [&str] and [String] become
    errors that display as themselves. *)
Inductive error (X : Type) := Simple (k : errkind) | Custom (k : errkind) (inner : X).
Arguments Simple {X} k. Arguments Custom {X} k inner.

(** error.rs 55-69 *)
Definition as_str (k : errkind) : str :=
  match k with
  | Overflow => lit "Value has overflow"
  | Zero => lit "Value is zero"
  | NAN => lit "Value is 'not a number'"
  | InvalidInput => lit "Invalid input"
  | InvalidArgumentCount => lit "Invalid number of arguments"
  | DivisionByZero => lit "Cannot divide by zero"
  | NegativeValue => lit "Value is negative"
  | PositiveValue => lit "Value is positive"
  | Empty => lit "Empty input"
  | InvalidExpression => lit "Invalid expression"
  | Unknown_ => lit "Unknown error"
  end.

Section Error.
Context {X : Type}.
Variable show : X -> str.
(** error.rs 100-110, 121-123, 207-213 *)
Definition error_new (k : errkind) (x : X) : error X := Custom k x.
Definition error_other (x : X) : error X := error_new Unknown_ x.
Definition error_from (k : errkind) : error X := Simple k.
(** error.rs 134-139 *)
Definition error_kind (e : error X) : errkind := match e with Simple k => k | Custom k _ => k end.
(** error.rs 165-170; [get_ref] (182-187) and [get_mut] (199-204) give access to the same *)
Definition into_inner (e : error X) : option X := match e with Simple _ => None | Custom _ x => Some x end.
(** error.rs 215-222 *)
Definition error_display (e : error X) : str := match e with Simple k => as_str k | Custom _ x => show x end.
(** the derived equality of kinds, error.rs 28 *)
Definition kind_eqb (a b : errkind) : bool :=
  match a, b with
  | Overflow, Overflow | Zero, Zero | NAN, NAN | InvalidInput, InvalidInput | InvalidArgumentCount, InvalidArgumentCount
  | DivisionByZero, DivisionByZero | NegativeValue, NegativeValue | PositiveValue, PositiveValue | InvalidExpression, InvalidExpression
  | Empty, Empty | Unknown_, Unknown_ => true
  | _, _ => false
  end.
(** error.rs 74-79 *)
Definition error_eqb (a b : error X) : bool := kind_eqb (error_kind a) (error_kind b).
End Error.

Section Token.
Context {V : Type}.
Variable show : V -> str.
(** token.rs 31-48 *)
Definition token_display (t : token V) : str :=
  match t with
  | TNumber v => lit "Number(" ++ show v ++ lit ")"
  | TVariable x => lit "Variable(" ++ x ++ lit ")"
  | TConstant x => lit "Constant(" ++ x ++ lit ")"
  | TFunction f => lit "Function(" ++ f ++ lit ")"
  | TBinary o => lit "BinaryOperator('" ++ o ++ lit "')"
  | TUnary u => lit "UnaryOperator('" ++ u ++ lit "')"
  | TArgCount n => lit "ArgCount(" ++ show_int (Z.of_nat n) ++ lit ")"
  | TOpen c => lit "ParenthesisOpen('" ++ [c] ++ lit "')"
  | TClose c => lit "ParenthesisClose('" ++ [c] ++ lit "')"
  | TUnknown s => lit "Unknown(" ++ s ++ lit ")"
  | TComma => lit "Comma"
  end.
End Token.

(** token.rs 70-142: the predicates *)
Section Predicates.
Context {V : Type}.
Definition is_number (t : token V) : bool := match t with TNumber _ => true | _ => false end.
Definition is_variable (t : token V) : bool := match t with TVariable _ => true | _ => false end.
Definition is_constant (t : token V) : bool := match t with TConstant _ => true | _ => false end.
Definition is_function (t : token V) : bool := match t with TFunction _ => true | _ => false end.
Definition is_unary_operator (t : token V) : bool := match t with TUnary _ => true | _ => false end.
Definition is_binary_operator (t : token V) : bool := match t with TBinary _ => true | _ => false end.
Definition is_arg_count (t : token V) : bool := match t with TArgCount _ => true | _ => false end.
Definition is_grouping_open (t : token V) : bool := match t with TOpen _ => true | _ => false end.
Definition is_grouping_close (t : token V) : bool := match t with TClose _ => true | _ => false end.
Definition is_comma (t : token V) : bool := match t with TComma => true | _ => false end.
Definition is_unknown (t : token V) : bool := match t with TUnknown _ => true | _ => false end.
End Predicates.
