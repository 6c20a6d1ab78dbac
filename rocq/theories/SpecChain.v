(** * Specification: chains of operators of one precedence *)
From Coq Require Import List NArith Bool.
From Verif Require Import ModelBase ModelContext SpecExpr.
Import ListNotations.

Section Chain.
Context {V W : Type}.
Variable c : ctx V W.
Notation E := (expr V).

(** The tokens of [a o1 e1 o2 e2 ...] after [a], and the trees that group it to the left or to the right. *)
Fixpoint chain (rest : list (str * E)) : list (token V) :=
  match rest with [] => [] | (o, e) :: rest' => TBinary o :: print e ++ chain rest' end.
(** ((a o1 e1) o2 e2) ... *)
Fixpoint left_tree (a : E) (rest : list (str * E)) : E :=
  match rest with [] => a | (o, e) :: rest' => left_tree (EBin o a e) rest' end.
(** a o1 (e1 o2 (e2 ...)) *)
Fixpoint right_tree (a : E) (rest : list (str * E)) : E :=
  match rest with [] => a | (o, e) :: rest' => EBin o a (right_tree e rest') end.

(** [o] is a binary operator of precedence [p] and associativity [a]. *)
Definition op_like (p : N) (a : associativity) (o : str) : Prop :=
  exists f, get_binary c o = Some f /\ bf_prec f = p /\ bf_assoc f = a.

End Chain.
