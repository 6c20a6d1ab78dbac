(** * Specification: the same outcome, unless the first computation reports an overflow *)
From Verif Require Import ModelBase.

(** From every state the two computations end alike: same value, error or panic, and same state. When [excused] holds, the
    first may instead have failed with [Overflow]. *)
Definition same_outcome {W A} (excused : Prop) (m m' : M W A) : Prop :=
  forall w, (excused /\ fst (m w) = Err Overflow) \/ m' w = m w.
