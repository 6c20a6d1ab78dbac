(** * Specification: exact arithmetic on rationals

    A reference interpreter over unbounded rationals, and what it means for a number type to compute exactly. It says nothing ([None])
    about what needs more than exact arithmetic: factorials of fractions, quotients the number type cannot write down. *)
From Coq Require Import List NArith ZArith QArith Qminmax Bool String.
From Verif Require Import ModelBase ModelContext ModelNum SpecExpr SpecOps SpecCalculator.
Import ListNotations.
Local Open Scope Q_scope.

(** The type writes down rationals without limits: each value has a rational value, and [+ - *], signs and comparisons are those of
    rationals. [exact_quotient] tells which quotients it can write down; [n_fuel] (a bound on the turns of the loop of [!], which the
    code has not) is enough for whole numbers. *)
Record exact_num {V} (n : num V) (val : V -> Q) (exact_quotient : Q -> Q -> bool) : Prop := ExactNum {
  x_zero : val (n_zero n) == 0;
  x_one : val (n_one n) == 1;
  x_is_zero : forall x, n_is_zero n x = true <-> val x == 0;
  x_is_one : forall x, n_is_one n x = true <-> val x == 1;
  x_cmp : forall x y, n_cmp n x y = Some (val x ?= val y);
  x_add : forall x y, exists z, n_add n x y = Ok z /\ val z == val x + val y;
  x_sub : forall x y, exists z, n_sub n x y = Ok z /\ val z == val x - val y;
  x_mul : forall x y, exists z, n_mul n x y = Ok z /\ val z == val x * val y;
  x_neg : forall x, exists z, n_neg n x = Ok z /\ val z == - val x;
  x_div : forall x y p q, val x == p -> val y == q -> exact_quotient p q = true -> exists z, n_div n x y = Ok z /\ val z == p / q;
  x_usize : forall k, exists z, n_from_usize n k = Some z /\ val z == inject_Z (Z.of_nat k);
  x_turns : forall x k, val x == inject_Z k -> (Z.to_nat k <= n_fuel n x)%nat }.

Section Rationals.
Context {V : Type}.
Variable val : V -> Q.
Variable exact_quotient : Q -> Q -> bool.
Variable vars : str -> option Q.

(** What is said, what fails and what is left open, one after the other. *)
Definition said (q : Q) : option (res Q) := Some (Ok q).
Definition fails (k : errkind) : option (res Q) := Some (Err k).
Definition next {A B} (r : option (res A)) (f : A -> option (res B)) : option (res B) :=
  match r with Some (Ok x) => f x | Some (Err k) => Some (Err k) | Some Panic => Some Panic | None => None end.

Definition quotient (p q : Q) : option (res Q) :=
  if Qeq_bool q 0 then fails DivisionByZero else if exact_quotient p q then said (p / q) else None.
Definition q_operation (o : str) (p q : Q) : option (res Q) :=
  if named o "+" then said (p + q)
  else if named o "-" then said (p - q)
  else if named o "*" then said (p * q)
  else if named o "/" then quotient p q
  else if named o "mod" then if Qeq_bool q 0 then fails DivisionByZero else None
  else None.
(** [n!], exactly, if [n] is a whole number. *)
Definition q_factorial (q : Q) : option (res Q) :=
  if Qle_bool 0 q then
    if Pos.eqb (Qden (Qred q)) 1 then said (inject_Z (fact (Z.to_nat (Qnum (Qred q))))) else None
  else fails NegativeValue.
Definition q_sign (u : str) (q : Q) : option (res Q) := said (if named u "-" then - q else q).
Definition q_call (f : str) (qs : list Q) : option (res Q) :=
  if named f "sum" then match qs with q :: qs' => said (fold_left Qplus qs' q) | [] => fails InvalidArgumentCount end
  else if named f "product" then match qs with q :: qs' => said (fold_left Qmult qs' q) | [] => fails InvalidArgumentCount end
  else if named f "avg" then
    match qs with
    | q :: qs' => if exact_quotient (fold_left Qplus qs' q) (inject_Z (Z.of_nat (List.length qs)))
                  then said (fold_left Qplus qs' q / inject_Z (Z.of_nat (List.length qs))) else None
    | [] => fails InvalidArgumentCount
    end
  else if named f "max" then match qs with p :: q :: qs' => said (fold_left Qmax (q :: qs') p) | _ => fails InvalidArgumentCount end
  else if named f "min" then match qs with p :: q :: qs' => said (fold_left Qmin (q :: qs') p) | _ => fails InvalidArgumentCount end
  else None.

Fixpoint q_collect (rs : list (option (res Q))) : option (res (list Q)) :=
  match rs with [] => Some (Ok []) | r :: rs' => next r (fun q => next (q_collect rs') (fun qs => Some (Ok (q :: qs)))) end.

Fixpoint rational (e : expr V) : option (res Q) :=
  match e with
  | ENum v => said (val v)
  | EVar x => match vars x with Some q => said q | None => fails InvalidInput end
  | EConst x => None
  | EGroup _ e => rational e
  | ECall f _ args => next (q_collect (map rational args)) (q_call f)
  | EPre u e => if named u "+" || named u "-" then next (rational e) (q_sign u) else None
  | EPost e u => if named u "!" then next (rational e) q_factorial else None
  | EBin o l r => next (rational l) (fun p => next (rational r) (fun q => q_operation o p q))
  | EMul l r => next (rational l) (fun p => next (rational r) (fun q => said (p * q)))
  end.

(** A result with the rational value, or the same error. *)
Definition equals (r : res V) (s : res Q) : Prop :=
  match r, s with Ok v, Ok q => val v == q | Err k, Err k' => k = k' | _, _ => False end.
End Rationals.
