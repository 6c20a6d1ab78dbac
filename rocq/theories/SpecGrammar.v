(** * Specification: the grammar of infix token sequences

      expr    ::=  primary
                |  primary  binary-operator  expr
                |  primary  expr                      (implied multiplication, if enabled)
                |  prefix-operator  expr              (the expr does not start with an atom)
      primary ::=  atom  |  prefix-operator atom  |  open expr close
                |  function open expr , ... , expr close   |  primary postfix-operator
      atom    ::=  number  |  variable  |  constant

    Nothing is said about precedence: the grammar describes sequences, not trees. *)
From Coq Require Import List NArith Bool.
From Verif Require Import ModelBase ModelContext SpecExpr.
Import ListNotations.

Section Grammar.
Context {V W : Type}.
Variable c : ctx V W.
Notation tok := (token V).

Definition starts_atom (q : list tok) : bool :=
  match q with t :: _ => atom_token t | [] => false end.

(** The pairs of neighbours that multiply. *)
Definition multiplies (a b : tok) : bool :=
  match a, b with
  | TNumber _, (TFunction _ | TConstant _ | TVariable _ | TOpen _) => true
  | TClose _, (TNumber _ | TVariable _ | TConstant _ | TFunction _ | TOpen _) => true
  | _, _ => false
  end.

Inductive g_expr : list tok -> Prop :=
| G_primary : forall p, g_primary p -> g_expr p
| G_binary : forall p o q,
    g_primary p -> get_binary c o <> None -> g_expr q -> g_expr (p ++ [TBinary o] ++ q)
| G_juxta : forall p a b q,
    implicit_mul (cfg c) = true -> g_primary (p ++ [a]) -> g_expr (b :: q) -> multiplies a b = true ->
    g_expr ((p ++ [a]) ++ b :: q)
| G_prefix : forall u q,
    has_notation c u Prefix -> g_expr q -> starts_atom q = false -> g_expr (TUnary u :: q)
with g_primary : list tok -> Prop :=
| GP_atom : forall t, atom_token t = true -> g_primary [t]
| GP_signed : forall u t, has_notation c u Prefix -> atom_token t = true -> g_primary [TUnary u; t]
| GP_group : forall g q, g_expr q -> g_primary (TOpen (grouping_open g) :: q ++ [TClose (grouping_close g)])
| GP_call : forall f g q, (custom_function_call (cfg c) = false -> g = Parenthesis) -> g_args q ->
    g_primary (TFunction f :: TOpen (grouping_open g) :: q ++ [TClose (grouping_close g)])
| GP_post : forall p u, g_primary p -> has_notation c u Postfix -> g_primary (p ++ [TUnary u])
with g_args : list tok -> Prop :=
| GA_one : forall q, g_expr q -> g_args q
| GA_more : forall q qs, g_expr q -> g_args qs -> g_args (q ++ [TComma] ++ qs).

Scheme g_expr_mut := Minimality for g_expr Sort Prop
  with g_primary_mut := Minimality for g_primary Sort Prop
  with g_args_mut := Minimality for g_args Sort Prop.

End Grammar.
