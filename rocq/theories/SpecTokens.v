(** * Specification: facts about arbitrary token sequences *)
From Coq Require Import List NArith Bool.
From Verif Require Import ModelBase ModelContext SpecExpr SpecGrammar.
Import ListNotations.

Section Tokens.
Context {V W : Type}.
Notation tok := (token V).

Definition is_bracket (t : tok) : bool := match t with TOpen _ | TClose _ => true | _ => false end.

(** Balanced sequences: every opening symbol is closed by a closing symbol of its kind, and nesting is proper. *)
Inductive balanced : list tok -> Prop :=
| bal_nil : balanced []
| bal_other : forall t, is_bracket t = false -> balanced [t]
| bal_app : forall a b, balanced a -> balanced b -> balanced (a ++ b)
| bal_wrap : forall o g q, grouping_new o = Some g -> balanced q ->
    balanced (TOpen o :: q ++ [TClose (grouping_close g)]).

(** [q] occurs in [toks] as a comma directly inside the group of a call: the innermost group open before the comma
    is one that follows a function name immediately. *)
Definition comma_in_call (before : list tok) : Prop :=
  exists pre f o mid, before = pre ++ TFunction f :: TOpen o :: mid /\ balanced mid.

(** Operands (values) and operations of a sequence. *)
Definition operands (toks : list tok) : list tok := filter atom_token toks.
Definition operation_token (t : tok) : bool :=
  match t with TBinary _ | TUnary _ | TFunction _ => true | _ => false end.
Definition operations (toks : list tok) : list tok := filter operation_token toks.

(** The number of places where two neighbours multiply. *)
Fixpoint juxtapositions (toks : list tok) : nat :=
  match toks with
  | a :: ((b :: _) as r) => (if multiplies a b then 1 else 0) + juxtapositions r
  | _ => 0
  end.

(** Numbers of values, binary operators, calls and commas in a sequence. *)
Definition count (p : tok -> bool) (toks : list tok) : nat := length (filter p toks).
Definition is_binary_token (t : tok) : bool := match t with TBinary _ => true | _ => false end.
Definition is_comma_token (t : tok) : bool := match t with TComma => true | _ => false end.

(** Every name in the sequence means something in [c], and there are no tokens without meaning. *)
Definition meaningful (c : ctx V W) (t : tok) : Prop :=
  match t with
  | TVariable x => exists v, get_variable c x = Some v
  | TConstant x => exists v, get_constant c x = Some v
  | TFunction f => exists fn, get_function c f = Some fn
  | TBinary o => exists fn, get_binary c o = Some fn
  | TUnary u => exists fn, get_unary c u = Some fn
  | TNumber _ | TOpen _ | TClose _ | TComma => True
  | TArgCount _ | TUnknown _ => False
  end.

(** The functions and operators that the token names, if any, do not panic. *)
Definition calls_safely (c : ctx V W) (t : tok) : Prop :=
  match t with
  | TFunction n => forall f args w, get_function c n = Some f -> fst (fn_call f args w) <> Panic
  | TUnary n => forall f x w, get_unary c n = Some f -> fst (uf_call f x w) <> Panic
  | TBinary n => forall f x y w, get_binary c n = Some f -> fst (bf_call f x y w) <> Panic
  | _ => True
  end.

End Tokens.
