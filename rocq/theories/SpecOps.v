(** * Specification: exact arithmetic on machine integers *)
From Coq Require Import List NArith ZArith Bool String.
From Verif Require Import ModelBase ModelContext ModelNum SpecExpr.
Import ListNotations.
Local Open Scope Z_scope.

(** The values of an integer type of [bits t] bits. *)
Definition fits (t : ity) (z : Z) : Prop :=
  if signed t then - 2 ^ (bits t - 1) <= z < 2 ^ (bits t - 1) else 0 <= z < 2 ^ bits t.

(** [r] is [z] if it fits, otherwise the error [Overflow]. *)
Definition exact_or_overflow (t : ity) (z : Z) (r : res Z) : Prop :=
  (fits t z /\ r = Ok z) \/ (~ fits t z /\ r = Err Overflow).
(** [r] is a value of the type that is congruent to [z] modulo the size of the type. *)
Definition wrapped (t : ity) (z : Z) (r : res Z) : Prop :=
  exists v, r = Ok v /\ fits t v /\ exists k, v = z + k * 2 ^ bits t.

(** Division as in most languages: the quotient truncates towards zero, the remainder has the sign of the dividend. *)
Definition is_quotient (x y q r : Z) : Prop := x = y * q + r /\ Z.abs r < Z.abs y /\ (0 <= x -> 0 <= r) /\ (x <= 0 -> r <= 0).

(** Expressions written with integers, groups, [+ - * / mod], implied multiplication and signs. *)
Fixpoint arithmetic (e : expr Z) : Prop :=
  match e with
  | ENum _ => True
  | EGroup _ e => arithmetic e
  | EPre u e => In u [lit "+"; lit "-"] /\ arithmetic e
  | EBin o l r => In o [lit "+"; lit "-"; lit "*"; lit "/"; lit "mod"] /\ arithmetic l /\ arithmetic r
  | EMul l r => arithmetic l /\ arithmetic r
  | _ => False
  end.
(** Those without division. *)
Fixpoint ring (e : expr Z) : Prop :=
  match e with
  | ENum _ => True
  | EGroup _ e => ring e
  | EPre u e => In u [lit "+"; lit "-"] /\ ring e
  | EBin o l r => In o [lit "+"; lit "-"; lit "*"] /\ ring l /\ ring r
  | EMul l r => ring l /\ ring r
  | _ => False
  end.

(** The value of such an expression over the unbounded integers; none if there is a division by zero. *)
Definition ideal_op (o : str) (x y : Z) : option Z :=
  if str_eqb o (lit "+") then Some (x + y)
  else if str_eqb o (lit "-") then Some (x - y)
  else if str_eqb o (lit "*") then Some (x * y)
  else if y =? 0 then None
  else if str_eqb o (lit "/") then Some (Z.quot x y) else Some (Z.rem x y).
Fixpoint ideal (e : expr Z) : option Z :=
  match e with
  | ENum z => Some z
  | EGroup _ e => ideal e
  | EPre u e => option_map (fun z => if str_eqb u (lit "-") then - z else z) (ideal e)
  | EBin o l r => match ideal l, ideal r with Some x, Some y => ideal_op o x y | _, _ => None end
  | EMul l r => match ideal l, ideal r with Some x, Some y => Some (x * y) | _, _ => None end
  | _ => None
  end.

(** The expression and all its parts have values of the type; and no [mod] divides the least value by -1 (there the
    quotient does not fit, although the remainder would). *)
Definition value_fits (t : ity) (o : option Z) : Prop := exists z, o = Some z /\ fits t z.
Fixpoint all_fit (t : ity) (e : expr Z) : Prop :=
  value_fits t (ideal e) /\
  match e with
  | EGroup _ e | EPre _ e => all_fit t e
  | EBin o l r => all_fit t l /\ all_fit t r /\
      (o = lit "mod" -> exists x y, ideal l = Some x /\ ideal r = Some y /\ fits t (Z.quot x y))
  | EMul l r => all_fit t l /\ all_fit t r
  | _ => True
  end.
(** The literals of an expression are values of the type. *)
Fixpoint literals_fit (t : ity) (e : expr Z) : Prop :=
  match e with
  | ENum z => fits t z
  | EGroup _ e | EPre _ e => literals_fit t e
  | EBin _ l r | EMul l r => literals_fit t l /\ literals_fit t r
  | _ => True
  end.

(** The sum (product) of the first [k] of the arguments. *)
Definition sum_first (k : nat) (zs : list Z) : Z := fold_right Z.add 0 (firstn k zs).
Definition product_first (k : nat) (zs : list Z) : Z := fold_right Z.mul 1 (firstn k zs).

Fixpoint fact (n : nat) : Z := match n with O => 1 | S m => Z.of_nat n * fact m end.

(** ** The functions of the default contexts: how many arguments they take *)
Definition takes_one : list string :=
  ["abs"; "sqrt"; "ln"; "exp"; "floor"; "ceil"; "trunc"; "truncate"; "round"; "signum"; "sign"; "to_radians"; "to_degrees"; "sin"; "cos"; "tan"; "csc"; "sec"; "cot";
   "asin"; "acos"; "acsc"; "asec"; "acot"; "sinh"; "cosh"; "tanh"; "csch"; "sech"; "coth"; "asinh"; "acosh"; "atanh"; "acsch"; "asech"; "acoth"]%string.
Definition accepts (name : str) (k : nat) : bool :=
  if existsb (fun s => str_eqb name (lit s)) ["sum"; "product"; "avg"]%string then (1 <=? k)%nat
  else if existsb (fun s => str_eqb name (lit s)) ["max"; "min"]%string then (2 <=? k)%nat
  else if existsb (fun s => str_eqb name (lit s)) ["log"; "atan"]%string then ((1 <=? k) && (k <=? 2))%nat
  else if str_eqb name (lit "random") then (k <=? 2)%nat
  else (k =? 1)%nat.

(** The call has no effect and its result does not depend on the state of the world. *)
Definition no_effect {W A} (m : M W A) : Prop := exists r, forall w, m w = (r, w).
