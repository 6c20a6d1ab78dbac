(** * Specification: how decimals and doubles are converted, as far as square roots need it

    rust_decimal converts a decimal to the nearest double and a double to a decimal of about its first sixteen digits. What
    the theorems use is much weaker: for a number that is not negative, if both conversions succeed, the decimal made of the
    double square root lies between half and one and a half times the real square root. *)
From Coq Require Import ZArith QArith.
From Verif Require Import ModelFloat ModelDecimal.
Definition good_roots {D : Type} (L : dlib D) (value : D -> Q) : Prop :=
  forall x f r, 0 <= value x -> d_to_f64 L x = Some f -> d_from_f64 L (f_sqrt f) = Some r ->
  0 <= value r /\ value x <= 4 * (value r * value r) /\ 4 * (value r * value r) <= 9 * value x.
