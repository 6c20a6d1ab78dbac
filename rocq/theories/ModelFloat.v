(** * 64-bit floating point numbers

    Rust's [f64] is IEEE 754 binary64. The standard library's [SpecFloat] (plain definitions, no axioms) gives its
    values and the correctly rounded operations. The transcendental methods ([f64::sin], [f64::powf], ...) come
    from the platform's mathematical library and are left open: a record [libm] of arbitrary functions. *)
From Coq Require Import List NArith ZArith Bool.
From Coq Require Import Floats.SpecFloat.
From Verif Require Import ModelBase.
Import ListNotations.
Local Open Scope Z_scope.

Definition f64 := spec_float.
Definition prec := 53.
Definition emax := 1024.

Definition f_add : f64 -> f64 -> f64 := SFadd prec emax.
Definition f_sub : f64 -> f64 -> f64 := SFsub prec emax.
Definition f_mul : f64 -> f64 -> f64 := SFmul prec emax.
Definition f_div : f64 -> f64 -> f64 := SFdiv prec emax.
Definition f_sqrt : f64 -> f64 := SFsqrt prec emax.
Definition f_neg : f64 -> f64 := SFopp.
Definition f_abs : f64 -> f64 := SFabs.
Definition f_cmp : f64 -> f64 -> option comparison := SFcompare.
Definition f_lt (x y : f64) : bool := SFltb x y.
Definition f_is_nan (x : f64) : bool := match x with S754_nan => true | _ => false end.
Definition f_is_infinite (x : f64) : bool := match x with S754_infinity _ => true | _ => false end.
Definition f_is_zero (x : f64) : bool := match x with S754_zero _ => true | _ => false end.
(** [f64::is_sign_negative]; only asked of numbers that are not NaN. *)
Definition f_sign_negative (x : f64) : bool :=
  match x with S754_zero s | S754_infinity s | S754_finite s _ _ => s | S754_nan => false end.

(** The double nearest to [m * 2^e]. *)
Definition f_of (m e : Z) : f64 := binary_normalize prec emax m e false.
Definition f_of_Z (z : Z) : f64 := f_of z 0.
Definition f_one : f64 := f_of_Z 1.
(** [std::f64::consts::PI] *)
Definition f_PI : f64 := f_of 884279719003555 (-48).
Definition f_zero : f64 := S754_zero false.
(** [Inv for f64]: 1 / x *)
Definition f_inv (x : f64) : f64 := f_div f_one x.

(** The integer part of a number, towards zero; [None] for infinities and NaN. *)
Definition f_trunc_Z (x : f64) : option Z :=
  match x with
  | S754_zero _ => Some 0
  | S754_finite s m e =>
      let a := if 0 <=? e then Z.pos m * 2 ^ e else Z.pos m / 2 ^ (- e) in
      Some (if s then - a else a)
  | _ => None
  end.

(** Remainder [x % y] (C's fmod): exact, with the sign of [x]. *)
Definition f_rem (x y : f64) : f64 :=
  match x, y with
  | S754_nan, _ | _, S754_nan => S754_nan
  | S754_infinity _, _ => S754_nan
  | _, S754_zero _ => S754_nan
  | S754_zero s, _ => S754_zero s
  | _, S754_infinity _ => x
  | S754_finite s mx ex, S754_finite _ my ey =>
      let e := Z.min ex ey in
      let r := (Z.pos mx * 2 ^ (ex - e)) mod (Z.pos my * 2 ^ (ey - e)) in
      binary_normalize prec emax (if s then - r else r) e s
  end.

(** Rounding to an integral value: [up s a r2] says whether to go from [a] to [a+1] given the sign and twice the
    remainder over the divisor. *)
Definition f_integral (adjust : bool -> Z -> Z -> Z -> Z) (x : f64) : f64 :=
  match x with
  | S754_finite s m e =>
      if 0 <=? e then x
      else let d := 2 ^ (- e) in
           let a := adjust s (Z.pos m / d) (Z.pos m mod d) d in
           if a =? 0 then S754_zero s else binary_normalize prec emax (if s then - a else a) 0 s
  | _ => x
  end.
(** [f64::round]: half away from zero *)
Definition f_round := f_integral (fun _ a r d => if d <=? 2 * r then a + 1 else a).
Definition f_floor := f_integral (fun s a r _ => if s && negb (r =? 0) then a + 1 else a).
Definition f_ceil := f_integral (fun s a r _ => if negb s && negb (r =? 0) then a + 1 else a).
Definition f_trunc := f_integral (fun _ a _ _ => a).
(** [f64::signum]: 1 for +0 too *)
Definition f_signum (x : f64) : f64 :=
  match x with
  | S754_nan => S754_nan
  | S754_zero s | S754_infinity s | S754_finite s _ _ => if s then f_neg f_one else f_one
  end.

(** /repo/prexel/src/ops/mod.rs 296-313: [approx] *)
Definition approx_error : f64 := f_div f_one (f_of_Z 10000000000).
Definition f_approx (x : f64) : f64 :=
  let r := f_round x in if f_lt (f_abs (f_sub x r)) approx_error then r else x.

(** The functions of the platform: methods of one argument by name ([sin], [exp], [to_radians], ...), [powf], [log]
    with a base, and [atan2]. *)
Record libm := Libm {
  method1 : str -> f64 -> f64;
  powf : f64 -> f64 -> f64;
  log_base : f64 -> f64 -> f64;
  atan2 : f64 -> f64 -> f64 }.
