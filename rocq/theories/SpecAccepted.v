(** * Specification: the operands and operations of a tree *)
From Coq Require Import List.
From Verif Require Import ModelBase ModelContext SpecExpr.
Import ListNotations.

(** The values an expression is made of, from left to right. *)
Fixpoint leaves {V} (e : expr V) : list (token V) :=
  match e with
  | ENum v => [TNumber v]
  | EVar x => [TVariable x]
  | EConst x => [TConstant x]
  | EGroup _ e => leaves e
  | ECall _ _ args => flat_map leaves args
  | EPre _ e => leaves e
  | EPost e _ => leaves e
  | EBin _ l r => leaves l ++ leaves r
  | EMul l r => leaves l ++ leaves r
  end.

(** The operations it makes, in the order in which they are made; an implied multiplication is one too. *)
Fixpoint applied {V} (e : expr V) : list (token V) :=
  match e with
  | ENum _ | EVar _ | EConst _ => []
  | EGroup _ e => applied e
  | ECall f _ args => flat_map applied args ++ [TFunction f]
  | EPre u e => applied e ++ [TUnary u]
  | EPost e u => applied e ++ [TUnary u]
  | EBin o l r => applied l ++ applied r ++ [TBinary o]
  | EMul l r => applied l ++ applied r ++ [TBinary times]
  end.
