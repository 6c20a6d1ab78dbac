(** * Specification for C103: how an integer is written *)
From Coq Require Import List NArith ZArith.
From Verif Require Import ModelBase SpecOps SpecParse.
Import ListNotations.

(** Decimal digits with this value, at least one and without a zero before others. *)
Definition natural (s : str) (z : Z) : Prop := digits 10 s z /\ s <> [] /\ forall u, s = 48%N :: u -> u = [].
(** A minus before the digits of a negative number. *)
Inductive writes : Z -> str -> Prop :=
| writes_natural : forall z s, natural s z -> writes z s
| writes_negative : forall z s, (z < 0)%Z -> natural s (- z) -> writes z (45%N :: s).
