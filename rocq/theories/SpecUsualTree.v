(** * The usual rules for expressions with [+ - * / mod ^ !], for numbers of any type

    Vocabulary: SpecExpr (trees), SpecCalculator ([one_of]: one of these names in any case of ASCII letters; [binds_first]: the precedences). *)
From Coq Require Import List NArith ZArith Bool String.
From Verif Require Import ModelBase ModelContext SpecText SpecExpr SpecCalculator.
Import ListNotations.
Local Open Scope string_scope.
Local Open Scope list_scope.

Section Trees.
Context {V : Type}.
(** Whether multiplication may be implied, functions may be called with any brackets, and there are factorials. *)
Variables implied custom factorials : bool.
(** Of the operators at the edges of the operands, those of the left operand bind before [o], and [o] does not bind before those of the right one. *)
Fixpoint usual (e : expr V) : Prop :=
  match e with
  | ENum _ | EVar _ | EConst _ => True
  | EGroup _ e => usual e
  | ECall _ g args => args <> [] /\ (custom = false -> g = Parenthesis) /\
      (fix all es := match es with [] => True | e :: es' => usual e /\ all es' end) args
  | EPre u e => one_of ["+"; "-"] u /\ usual e /\ (is_atom e = true \/ starts_with_atom e = false)
  | EPost e u => factorials = true /\ one_of ["!"] u /\ usual e /\ is_primary e = true
  | EBin o l r => one_of ["+"; "-"; "*"; "/"; "mod"; "^"] o /\ usual l /\ usual r /\ ends_in_prefix l = false
      /\ (forall o', In o' (right_ops l) -> binds_first o' o) /\ (forall o', In o' (left_ops r) -> ~ binds_first o o')
  | EMul l r => usual l /\ usual r /\ implied = true /\ juxtaposed l r = true
      /\ (forall o', In o' (left_ops r) -> ~ binds_first times o')
  end.
(** The names of the operators are of ASCII characters. *)
Fixpoint ascii_operators (e : expr V) : Prop :=
  match e with
  | ENum _ | EVar _ | EConst _ => True
  | EGroup _ e => ascii_operators e
  | ECall _ _ args => (fix all es := match es with [] => True | e :: es' => ascii_operators e /\ all es' end) args
  | EPre u e | EPost e u => ascii_string u /\ ascii_operators e
  | EBin o l r => ascii_string o /\ ascii_operators l /\ ascii_operators r
  | EMul l r => ascii_operators l /\ ascii_operators r
  end.
End Trees.
