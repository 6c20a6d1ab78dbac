(** * Specification: rewriting expressions: brackets, and variables for expressions *)
From Coq Require Import List NArith Bool String.
From Verif Require Import ModelBase ModelContext SpecExpr.
Import ListNotations.

(** The same expression but for brackets around parts of it. *)
Fixpoint bare {V} (e : expr V) : expr V :=
  match e with
  | ENum v => ENum v
  | EVar x => EVar x
  | EConst x => EConst x
  | EGroup _ e => bare e
  | ECall f _ args => ECall f Parenthesis (map bare args)
  | EPre u e => EPre u (bare e)
  | EPost e u => EPost (bare e) u
  | EBin o l r => EBin o (bare l) (bare r)
  | EMul l r => EMul (bare l) (bare r)
  end.
Definition same_but_brackets {V} (e e' : expr V) : Prop := bare e = bare e'.

(** Brackets around every operand, and implied products written out. *)
Fixpoint bracketed {V} (e : expr V) : expr V :=
  match e with
  | ENum v => ENum v
  | EVar x => EVar x
  | EConst x => EConst x
  | EGroup g e => EGroup g (bracketed e)
  | ECall f _ args => ECall f Parenthesis (map bracketed args)
  | EPre u e => EPre u (EGroup Parenthesis (bracketed e))
  | EPost e u => EPost (EGroup Parenthesis (bracketed e)) u
  | EBin o l r => EBin o (EGroup Parenthesis (bracketed l)) (EGroup Parenthesis (bracketed r))
  | EMul l r => EBin times (EGroup Parenthesis (bracketed l)) (EGroup Parenthesis (bracketed r))
  end.
(** Every operator of the tree is registered, with the notation it is used with, and every call has arguments: nothing about
    precedence. *)
Inductive registered {V W} (c : ctx V W) : expr V -> Prop :=
| R_num : forall v, registered c (ENum v)
| R_var : forall x, registered c (EVar x)
| R_const : forall x, registered c (EConst x)
| R_group : forall g e, registered c e -> registered c (EGroup g e)
| R_call : forall f g args, args <> [] -> (forall a, In a args -> registered c a) -> registered c (ECall f g args)
| R_pre : forall u e, has_notation c u Prefix -> registered c e -> registered c (EPre u e)
| R_post : forall u e, has_notation c u Postfix -> registered c e -> registered c (EPost e u)
| R_bin : forall o l r, get_binary c o <> None -> registered c l -> registered c r -> registered c (EBin o l r)
| R_mul : forall l r, get_binary c times <> None -> registered c l -> registered c r -> registered c (EMul l r).

(** [e] with [by] in the place of the variable [x]. *)
Fixpoint replace {V} (x : str) (by_ : expr V) (e : expr V) : expr V :=
  match e with
  | ENum v => ENum v
  | EVar y => if str_eqb y x then by_ else EVar y
  | EConst y => EConst y
  | EGroup g e => EGroup g (replace x by_ e)
  | ECall f g args => ECall f g (map (replace x by_) args)
  | EPre u e => EPre u (replace x by_ e)
  | EPost e u => EPost (replace x by_ e) u
  | EBin o l r => EBin o (replace x by_ l) (replace x by_ r)
  | EMul l r => EMul (replace x by_ l) (replace x by_ r)
  end.
(** [c'] is [c] but for the variable [x], which is [v]. *)
Definition with_variable {V W} (c : ctx V W) (x : str) (v : V) (c' : ctx V W) : Prop :=
  (forall y, get_variable c' y = if str_eqb y x then Some v else get_variable c y) /\
  (forall y, get_constant c' y = get_constant c y) /\ (forall y, get_function c' y = get_function c y) /\
  (forall y, get_unary c' y = get_unary c y) /\ (forall y, get_binary c' y = get_binary c y).
