(** * Specification: decimal numbers

    What the crate rust_decimal documents about its numbers, as far as the theorems use it, over the rational numbers. *)
From Coq Require Import List NArith ZArith QArith Qabs Qround Bool String.
From Verif Require Import ModelBase ModelContext ModelNum ModelFloat ModelDecimal SpecExpr SpecText.
Import ListNotations.
Local Open Scope Z_scope.

(** A number of at most 96 bits, with up to 28 digits after the point. *)
Definition limit : Z := 2 ^ 96.
Definition representable (q : Q) : Prop :=
  exists c s : Z, 0 <= s <= 28 /\ Z.abs c < limit /\ (q * inject_Z (10 ^ s) == inject_Z c)%Q.

(** Rounded towards zero. *)
Definition truncated (q : Q) : Z := if Qle_bool 0 q then Qfloor q else Qceiling q.

Section Decimals.
Context {D : Type}.
Variable L : dlib D.
Variable value : D -> Q.

(** [r] is what an operation gives whose exact result is [q]: exactly that if it is representable; nothing if it is out of
    range; otherwise a number that differs from it by at most one in the last digit there is room for. *)
Definition computes (q : Q) (r : option D) : Prop :=
  (representable q -> exists z, r = Some z /\ (value z == q)%Q) /\
  ((inject_Z limit <= Qabs q)%Q -> r = None) /\
  ((Qabs q <= inject_Z (limit - 1))%Q -> exists z, r = Some z /\
     forall s, 0 <= s <= 28 -> (Qabs q * inject_Z (10 ^ s) < inject_Z (2 ^ 95))%Q -> (Qabs (value z - q) * inject_Z (10 ^ s) <= 1)%Q).

Record exact_decimals : Prop := {
  ed_representable : forall x, representable (value x);
  ed_literal : forall c s, Z.abs c < limit -> (s <= 28)%N -> (value (d_lit L c s) * inject_Z (10 ^ Z.of_N s) == inject_Z c)%Q;
  ed_compare : forall x y, d_cmp L x y = (value x ?= value y)%Q;
  ed_add : forall x y, computes (value x + value y) (d_cadd L x y);
  ed_sub : forall x y, computes (value x - value y) (d_csub L x y);
  ed_mul : forall x y, computes (value x * value y) (d_cmul L x y);
  ed_div : forall x y, ~ (value y == 0)%Q -> computes (value x / value y) (d_cdiv L x y);
  ed_div_zero : forall x y, (value y == 0)%Q -> d_cdiv L x y = None;
  ed_rem : forall x y, ~ (value y == 0)%Q -> exists z, d_crem L x y = Some z /\
    (value z == value x - value y * inject_Z (truncated (value x / value y)))%Q;
  ed_rem_zero : forall x y, (value y == 0)%Q -> d_crem L x y = None;
  ed_neg : forall x, (value (d_neg L x) == - value x)%Q;
  ed_abs : forall x, (value (d_abs L x) == Qabs (value x))%Q;
  ed_round : forall x, exists k, (value (d_round L x) == inject_Z k)%Q /\ (Qabs (value x - inject_Z k) <= 1 # 2)%Q;
  ed_floor : forall x, (value (d_floor L x) == inject_Z (Qfloor (value x)))%Q;
  ed_ceil : forall x, (value (d_ceil L x) == inject_Z (Qceiling (value x)))%Q;
  ed_trunc : forall x, (value (d_trunc L x) == inject_Z (truncated (value x)))%Q;
  ed_fract : forall x, (value (d_fract L x) == value x - inject_Z (truncated (value x)))%Q;
  ed_round_dp : forall n x k, (value x * inject_Z (10 ^ Z.of_N n) == inject_Z k)%Q -> (value (d_round_dp L n x) == value x)%Q;
  ed_negative : forall x, (value x < 0)%Q -> d_sign_negative L x = true;
  ed_positive : forall x, (0 < value x)%Q -> d_sign_negative L x = false;
  ed_zero_positive : forall s, d_sign_negative L (d_lit L 0 s) = false;
  ed_i64 : forall x z, (value x == inject_Z z)%Q -> d_to_i64 L x = if (- 2 ^ 63 <=? z) && (z <? 2 ^ 63) then Some z else None;
}.

(** The same of an evaluation: the error is [Overflow]. *)
Definition decimal_outcome (q : Q) (r : res D) : Prop :=
  (representable q -> exists z, r = Ok z /\ (value z == q)%Q) /\
  ((inject_Z limit <= Qabs q)%Q -> r = Err Overflow) /\
  ((Qabs q <= inject_Z (limit - 1))%Q -> exists z, r = Ok z /\
     forall s, 0 <= s <= 28 -> (Qabs q * inject_Z (10 ^ s) < inject_Z (2 ^ 95))%Q -> (Qabs (value z - q) * inject_Z (10 ^ s) <= 1)%Q) /\
  r <> Panic.

Definition Qsum (l : list Q) : Q := fold_right Qplus 0%Q l.
Definition Qproduct (l : list Q) : Q := fold_right Qmult 1%Q l.

(** ** Expressions *)

(** [decimal_value e q]: the expression [e], of numbers, groups, signs and [+ - * / mod], has the value [q], and it and all
    its parts have representable values. *)
Inductive decimal_value : expr D -> Q -> Prop :=
| DV_number : forall x q, (value x == q)%Q -> decimal_value (ENum x) q
| DV_group : forall g e q, decimal_value e q -> decimal_value (EGroup g e) q
| DV_plus : forall u e q, ascii_alike u (lit "+") -> decimal_value e q -> decimal_value (EPre u e) q
| DV_minus : forall u e q q', ascii_alike u (lit "-") -> decimal_value e q -> (q' == - q)%Q -> decimal_value (EPre u e) q'
| DV_add : forall o l r x y q, ascii_alike o (lit "+") -> decimal_value l x -> decimal_value r y -> (q == x + y)%Q -> representable q -> decimal_value (EBin o l r) q
| DV_sub : forall o l r x y q, ascii_alike o (lit "-") -> decimal_value l x -> decimal_value r y -> (q == x - y)%Q -> representable q -> decimal_value (EBin o l r) q
| DV_mul : forall o l r x y q, ascii_alike o (lit "*") -> decimal_value l x -> decimal_value r y -> (q == x * y)%Q -> representable q -> decimal_value (EBin o l r) q
| DV_implied : forall l r x y q, decimal_value l x -> decimal_value r y -> (q == x * y)%Q -> representable q -> decimal_value (EMul l r) q
| DV_div : forall o l r x y q, ascii_alike o (lit "/") -> decimal_value l x -> decimal_value r y -> ~ (y == 0)%Q -> (q == x / y)%Q -> representable q -> decimal_value (EBin o l r) q
| DV_mod : forall o l r x y q, ascii_alike o (lit "mod") -> decimal_value l x -> decimal_value r y -> ~ (y == 0)%Q -> (q == x - y * inject_Z (truncated (x / y)))%Q -> decimal_value (EBin o l r) q.
End Decimals.
