(** * Results, errors, characters and strings *)
From Coq Require Import List NArith Bool Ascii String.
Import ListNotations.

(** /repo/prexel/src/error.rs 28-53: [ErrorKind]. The message carried by an [Error] is not modelled:
    [PartialEq for Error] (error.rs) compares kinds only. *)
Inductive errkind :=
| Overflow | Zero | NAN | InvalidInput | InvalidArgumentCount | DivisionByZero
| NegativeValue | PositiveValue | InvalidExpression | Empty | Unknown_.

(** The outcome of a Rust call: [Ok], [Err] of a kind, or a panic. /repo/prexel/src/lib.rs [Result]. *)
Inductive res (A : Type) : Type :=
| Ok (a : A)
| Err (k : errkind)
| Panic.
Arguments Ok {A} a. Arguments Err {A} k. Arguments Panic {A}.

(** The [?] operator. *)
Definition rbind {A B} (r : res A) (f : A -> res B) : res B :=
  match r with Ok a => f a | Err k => Err k | Panic => Panic end.

(** Calls of registered functions may read and write a world [W] (the random generator, interior
    mutability): a computation is a state transformer. *)
Definition M (W A : Type) := W -> res A * W.
Definition ret {W A} (a : A) : M W A := fun w => (Ok a, w).
Definition fail {W A} (k : errkind) : M W A := fun w => (Err k, w).
Definition crash {W A} : M W A := fun w => (Panic, w).
Definition bind {W A B} (m : M W A) (f : A -> M W B) : M W B :=
  fun w => match m w with
           | (Ok a, w') => f a w'
           | (Err k, w') => (Err k, w')
           | (Panic, w') => (Panic, w')
           end.
Definition lift {W A} (r : res A) : M W A := fun w => (r, w).

(** A [char] is a Unicode scalar value, a string the list of its [char]s. *)
Definition char := N.
Definition str := list char.

Definition char_eqb : char -> char -> bool := N.eqb.
Fixpoint str_eqb (a b : str) : bool :=
  match a, b with
  | [], [] => true
  | x :: a', y :: b' => char_eqb x y && str_eqb a' b'
  | _, _ => false
  end.

(** Coq string literals as strings of code points (ASCII only; used to write names). *)
Definition chr (a : ascii) : char := N_of_ascii a.
Fixpoint lit (s : string) : str :=
  match s with EmptyString => [] | String a s' => chr a :: lit s' end.

Lemma str_eqb_eq : forall a b, str_eqb a b = true <-> a = b.
Proof.
  induction a as [|x a IH]; intros [|y b]; simpl; split; try congruence; try discriminate.
  - intros H. apply andb_true_iff in H. destruct H as [H1 H2].
    apply N.eqb_eq in H1. apply IH in H2. congruence.
  - intros H. injection H as -> ->. unfold char_eqb. rewrite N.eqb_refl. simpl. apply IH. reflexivity.
Qed.

Lemma str_eqb_refl : forall a, str_eqb a a = true.
Proof. intros a. apply str_eqb_eq. reflexivity. Qed.
