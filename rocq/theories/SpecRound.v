(** * Correct rounding

    What IEEE 754 asks of an operation in the mode "round to nearest, ties to even", about the numbers of SpecDouble.v. *)
From Coq Require Import ZArith QArith Qabs Bool String.
From Coq Require Import Floats.SpecFloat.
From Verif Require Import ModelBase ModelFloat SpecText SpecExpr SpecDecimal SpecDouble SpecFunctions.
Local Open Scope Z_scope.

(** The least number that is rounded to infinity: halfway between the greatest double and 2^1024. *)
Definition overflow_threshold : Q := dyadic (2 ^ 54 - 1) 970.

Definition even_mantissa (x : f64) : Prop := match x with S754_finite _ m _ => Z.even (Zpos m) = true | _ => True end.

(** [x] is the double nearest to [q]: no double is nearer, and if another one is as near then [x] is the one whose last
    bit is 0. Numbers too great become infinities. *)
Definition rounds (q : Q) (x : f64) : Prop :=
  ((Qabs q < overflow_threshold)%Q -> exists p, stands_for x p /\
     (forall p', a_double p' -> (Qabs (q - p) <= Qabs (q - p'))%Q) /\
     (forall p', a_double p' -> ~ (p' == p)%Q -> (Qabs (q - p') == Qabs (q - p))%Q -> even_mantissa x)) /\
  ((overflow_threshold <= q)%Q -> x = S754_infinity false) /\
  ((q <= - overflow_threshold)%Q -> x = S754_infinity true).

(** ** The operations of IEEE 754, special cases included

    A result that is rounded from an exact value is determined by that value and its sign (theorem
    [C67_determined]: the sign only matters for the two zeros). *)
Definition ieee_sum (x y z : f64) : Prop :=
  match x, y with
  | S754_nan, _ | _, S754_nan => z = S754_nan
  | S754_infinity s, S754_infinity t => z = if Bool.eqb s t then S754_infinity s else S754_nan
  | S754_infinity s, _ => z = S754_infinity s
  | _, S754_infinity t => z = S754_infinity t
  | _, _ => forall p q, stands_for x p -> stands_for y q -> rounds (p + q) z /\
      ((0 < p + q)%Q -> negative z = false) /\ ((p + q < 0)%Q -> negative z = true) /\
      ((p + q == 0)%Q -> negative z = negative x && negative y)
  end.
Definition opposite (x : f64) : f64 :=
  match x with
  | S754_nan => S754_nan
  | S754_zero s => S754_zero (negb s)
  | S754_infinity s => S754_infinity (negb s)
  | S754_finite s m e => S754_finite (negb s) m e
  end.
Definition ieee_difference (x y z : f64) : Prop := ieee_sum x (opposite y) z.
Definition ieee_product (x y z : f64) : Prop :=
  match x, y with
  | S754_nan, _ | _, S754_nan | S754_infinity _, S754_zero _ | S754_zero _, S754_infinity _ => z = S754_nan
  | S754_infinity s, _ => z = S754_infinity (xorb s (negative y))
  | _, S754_infinity t => z = S754_infinity (xorb (negative x) t)
  | _, _ => forall p q, stands_for x p -> stands_for y q -> rounds (p * q) z /\ negative z = xorb (negative x) (negative y)
  end.
(** The divisor is not zero. *)
Definition ieee_quotient (x y z : f64) : Prop :=
  match x, y with
  | S754_nan, _ | _, S754_nan | S754_infinity _, S754_infinity _ => z = S754_nan
  | S754_infinity s, _ => z = S754_infinity (xorb s (negative y))
  | _, S754_infinity t => z = S754_zero (xorb (negative x) t)
  | _, _ => forall p q, stands_for x p -> stands_for y q -> rounds (p / q) z /\ negative z = xorb (negative x) (negative y)
  end.
(** The remainder of the division rounded towards zero; it is always a double. The divisor is not zero. *)
Definition ieee_remainder (x y z : f64) : Prop :=
  match x, y with
  | S754_nan, _ | _, S754_nan | S754_infinity _, _ => z = S754_nan
  | _, S754_infinity _ => z = x
  | _, _ => forall p q, stands_for x p -> stands_for y q -> stands_for z (p - q * inject_Z (truncated (p / q))) /\ negative z = negative x
  end.
(** [z] is the double nearest to the square root of [q]: the points halfway to the next doubles are on the other sides of it. *)
Definition root_rounds (q : Q) (z : f64) : Prop :=
  exists r, stands_for z r /\ (0 <= r)%Q /\
    (forall r', a_double r' -> (r < r')%Q -> (q <= ((r + r') / 2) * ((r + r') / 2))%Q) /\
    (forall r', a_double r' -> (0 <= r' < r)%Q -> (((r + r') / 2) * ((r + r') / 2) <= q)%Q).

(** ** Expressions: the numbers are doubles (any of them), every operation is done as above. *)
Definition zero_double (x : f64) : bool := match x with S754_zero _ => true | _ => false end.
Definition a_number (x : f64) : Prop := finite x = true -> exists q, stands_for x q.
Inductive ieee_value : expr f64 -> f64 -> Prop :=
| IV_number : forall x, a_number x -> ieee_value (ENum x) x
| IV_group : forall g e x, ieee_value e x -> ieee_value (EGroup g e) x
| IV_plus : forall u e x, ascii_alike u (lit "+") -> ieee_value e x -> ieee_value (EPre u e) x
| IV_minus : forall u e x, ascii_alike u (lit "-") -> ieee_value e x -> ieee_value (EPre u e) (opposite x)
| IV_add : forall o l r x y z, ascii_alike o (lit "+") -> ieee_value l x -> ieee_value r y -> ieee_sum x y z -> ieee_value (EBin o l r) z
| IV_sub : forall o l r x y z, ascii_alike o (lit "-") -> ieee_value l x -> ieee_value r y -> ieee_difference x y z -> ieee_value (EBin o l r) z
| IV_mul : forall o l r x y z, ascii_alike o (lit "*") -> ieee_value l x -> ieee_value r y -> ieee_product x y z -> ieee_value (EBin o l r) z
| IV_implied : forall l r x y z, ieee_value l x -> ieee_value r y -> ieee_product x y z -> ieee_value (EMul l r) z
| IV_div : forall o l r x y z, ascii_alike o (lit "/") -> ieee_value l x -> ieee_value r y -> zero_double y = false -> ieee_quotient x y z -> ieee_value (EBin o l r) z
| IV_mod : forall o l r x y z, ascii_alike o (lit "mod") -> ieee_value l x -> ieee_value r y -> zero_double y = false -> ieee_remainder x y z -> ieee_value (EBin o l r) z.
