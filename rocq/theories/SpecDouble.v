(** * What a 64-bit floating point number stands for

    An independent description of the values of [f64] (IEEE 754 binary64): a finite double is [±m * 2^e], written in
    one way only. *)
From Coq Require Import List ZArith QArith Qpower String.
From Coq Require Import Floats.SpecFloat.
From Verif Require Import ModelBase ModelFloat SpecText SpecExpr SpecDecimal.
Local Open Scope Z_scope.

(** [m * 2^e] *)
Definition dyadic (m e : Z) : Q := (inject_Z m * 2 ^ e)%Q.

(** Normal numbers have 53 significant bits; subnormal numbers have fewer, and the least exponent. *)
Definition normal_form (m : positive) (e : Z) : Prop :=
  -1074 <= e <= 971 /\ Zpos m < 2 ^ 53 /\ (e = -1074 \/ 2 ^ 52 <= Zpos m).

(** The double [x] is finite and stands for the number [q]. Both zeros stand for 0. *)
Definition stands_for (x : spec_float) (q : Q) : Prop :=
  match x with
  | S754_zero _ => (q == 0)%Q
  | S754_finite s m e => normal_form m e /\ (q == dyadic (if s then Zneg m else Zpos m) e)%Q
  | _ => False
  end.

(** The numbers that are (finite) doubles: 53 significant bits, exponents from -1074 to 971. *)
Definition a_double (q : Q) : Prop :=
  exists m e, Z.abs m < 2 ^ 53 /\ -1074 <= e <= 971 /\ (q == dyadic m e)%Q.

(** [double_value e q]: the expression [e], of numbers, groups, signs and [+ - * / mod], has the value [q] by the rules of
    arithmetic, and it and all its parts have values that are doubles. *)
Inductive double_value : expr f64 -> Q -> Prop :=
| FV_number : forall x q, stands_for x q -> double_value (ENum x) q
| FV_group : forall g e q, double_value e q -> double_value (EGroup g e) q
| FV_plus : forall u e q, ascii_alike u (lit "+") -> double_value e q -> double_value (EPre u e) q
| FV_minus : forall u e q, ascii_alike u (lit "-") -> double_value e q -> double_value (EPre u e) (- q)
| FV_add : forall o l r p q, ascii_alike o (lit "+") -> double_value l p -> double_value r q -> a_double (p + q) -> double_value (EBin o l r) (p + q)
| FV_sub : forall o l r p q, ascii_alike o (lit "-") -> double_value l p -> double_value r q -> a_double (p - q) -> double_value (EBin o l r) (p - q)
| FV_mul : forall o l r p q, ascii_alike o (lit "*") -> double_value l p -> double_value r q -> a_double (p * q) -> double_value (EBin o l r) (p * q)
| FV_implied : forall l r p q, double_value l p -> double_value r q -> a_double (p * q) -> double_value (EMul l r) (p * q)
| FV_div : forall o l r p q, ascii_alike o (lit "/") -> double_value l p -> double_value r q -> ~ (q == 0)%Q -> a_double (p / q) -> double_value (EBin o l r) (p / q)
| FV_mod : forall o l r p q, ascii_alike o (lit "mod") -> double_value l p -> double_value r q -> ~ (q == 0)%Q ->
    double_value (EBin o l r) (p - q * inject_Z (truncated (p / q))).
