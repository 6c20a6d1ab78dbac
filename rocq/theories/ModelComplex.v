(** * Complex numbers and the complex context (/repo/prexel/src/complex/mod.rs), for [Complex<f64>]

    The crate num_complex (0.2.4) is a dependency; of it, the field operations, [inv] and the remainder are written out here as
    they are in its source ([src/lib.rs]); its transcendental methods ([sqrt], [ln], [exp], [sin], ..., [powc], [log]) are left
    open: a record [clib] of arbitrary functions. *)
From Coq Require Import List NArith ZArith Bool String.
From Coq Require Import Floats.SpecFloat.
From Verif Require Import ModelBase ModelContext ModelText ModelDefault ModelFloat ModelNum ModelOps.
Import ListNotations.

(** [Complex { re, im }]; complex/mod.rs 1 *)
Definition c64 : Type := f64 * f64.
Definition re (z : c64) : f64 := fst z.
Definition im (z : c64) : f64 := snd z.

(** num_complex: [Add], [Sub], [Mul], [Neg] for [Complex<T>] *)
Definition z_add (x y : c64) : c64 := (f_add (re x) (re y), f_add (im x) (im y)).
Definition z_sub (x y : c64) : c64 := (f_sub (re x) (re y), f_sub (im x) (im y)).
Definition z_mul (x y : c64) : c64 :=
  (f_sub (f_mul (re x) (re y)) (f_mul (im x) (im y)), f_add (f_mul (re x) (im y)) (f_mul (im x) (re y))).
Definition z_neg (x : c64) : c64 := (f_neg (re x), f_neg (im x)).
(** num_complex: [norm_sqr], [Div], [inv] *)
Definition norm_sqr (x : c64) : f64 := f_add (f_mul (re x) (re x)) (f_mul (im x) (im x)).
Definition z_div (x y : c64) : c64 :=
  (f_div (f_add (f_mul (re x) (re y)) (f_mul (im x) (im y))) (norm_sqr y),
   f_div (f_sub (f_mul (im x) (re y)) (f_mul (re x) (im y))) (norm_sqr y)).
Definition z_inv (x : c64) : c64 := (f_div (re x) (norm_sqr x), f_div (f_neg (im x)) (norm_sqr x)).
(** num_complex: [Rem]: the quotient's parts are rounded towards zero. *)
Definition z_rem (x y : c64) : c64 :=
  let q := z_div x y in
  z_sub x (z_mul y (f_sub (re q) (f_rem (re q) f_one), f_sub (im q) (f_rem (im q) f_one))).
Definition z_is_zero (x : c64) : bool := f_is_zero (re x) && f_is_zero (im x).

(** [Complex<f64>] as a number type, for the operators of ops/unchecked.rs (which use the raw operators, [is_zero] and
    [from_usize]). Complex numbers have no order, no checked operations and no conversion to [f64]; the operators registered below
    do not use those fields. *)
Definition complex_num : num c64 := Num
  (f_zero, f_zero) (f_one, f_zero)
  z_is_zero (fun x => match f_cmp (re x) f_one with Some Eq => f_is_zero (im x) | _ => false end) (fun _ _ => None)
  (fun x y => Ok (z_add x y)) (fun x y => Ok (z_sub x y)) (fun x y => Ok (z_mul x y))
  (fun x y => Ok (z_div x y)) (fun x y => Ok (z_rem x y)) (fun x => Ok (z_neg x))
  (fun _ _ => None) (fun _ _ => None) (fun _ _ => None) (fun _ _ => None) (fun _ _ => None) (fun _ => None)
  (fun _ => None) (fun x => Some (x, f_zero)) (fun k => Some (f_of_Z (Z.of_nat k), f_zero))
  (fun _ => 0%nat).

(** The transcendental methods of num_complex: by name, [powc], and [log] with a real base. *)
Record clib := Clib {
  c_method : str -> c64 -> c64;
  c_powc : c64 -> c64 -> c64;
  c_log : c64 -> f64 -> c64 }.

Section Complex.
Context {W : Type}.
Variable L : clib.
(** [rand::random::<f64>()] *)
Variable random : W -> f64 * W.

(** complex/mod.rs 16-38 *)
Definition z_pow : bfunc c64 W := binop "^" HIGH RightA (fun x y => Ok (c_powc L x y)).

(** complex/mod.rs 40-67. Note the condition of line 54: a base is taken if its imaginary part is NOT zero. *)
Definition z_log : func c64 W := fun_ "log" (fun args =>
  match args with
  | [x] => Ok (c_log L x (f_of_Z 10))
  | [x; b] => if negb (f_is_zero (im b)) then Ok (c_log L x (re b)) else Err InvalidInput
  | _ => Err InvalidArgumentCount
  end).

(** complex/mod.rs 76-86: [try_get_real] *)
Definition try_get_real (c : c64) : res f64 := if negb (f_is_zero (im c)) then Err InvalidInput else Ok (re c).

(** complex/mod.rs 69-132. [f_sign_negative] of a NaN is false here; its sign is not modelled. *)
Definition z_rand : func c64 W := Func (lit "random") [] (fun args =>
  match args with
  | [] => fun w => let (r, w1) := random w in let (i, w2) := random w1 in (Ok (r, i), w2)
  | [x] => bind (lift (try_get_real x)) (fun max =>
      if f_sign_negative max then fail NegativeValue
      else fun w => let (r, w1) := random w in let (i, w2) := random w1 in (Ok (f_mul r max, f_mul i max), w2))
  | [x; y] => bind (lift (try_get_real x)) (fun min => bind (lift (try_get_real y)) (fun max =>
      if f_sign_negative min || f_sign_negative max then fail InvalidInput
      else fun w => let (r, w1) := random w in let (i, w2) := random w1 in
           (Ok (f_add min (f_mul (f_sub max min) r), f_add min (f_mul (f_sub max min) i)), w2)))
  | _ => fail InvalidArgumentCount
  end).

(** complex/mod.rs 134-154, 178-202: [forward_impl_func!] *)
Definition z_fwd (m : string) : func c64 W := fun_ m (one_arg (fun x => Ok (c_method L (lit m) x))).
(** complex/mod.rs 156-176, 204-228: [forward_impl_func_inv!] *)
Definition z_fwd_inv (m name : string) : func c64 W := fun_ name (one_arg (fun x => Ok (z_inv (c_method L (lit m) x)))).

Variable E : env.
Variable dbg : bool.
(** complex/mod.rs 421-423: [add_constant("PI", Complex::from_f64(PI).unwrap())] etc. *)
Definition KC (name : string) (v : c64) (d : dctx c64 W) : res unit * dctx c64 W := add_constant E dbg (lit name) v d.
Definition z_i : c64 := (f_zero, f_one).

Notation fu := (add_function E dbg (V := c64) (W := W)).
Notation un := (add_unary_function E dbg (V := c64) (W := W)).
Notation bi := (add_binary_function E dbg (V := c64) (W := W)).

(** complex/mod.rs 419-466: [with_config_complex] *)
Definition complex_context (cf : config) : res (dctx c64 W) :=
  build [KC "PI" (f_PI, f_zero); KC "E" (f_E, f_zero); KC "i" z_i;
         bi (u_add complex_num); bi (u_sub complex_num); bi (u_mul complex_num); bi (u_div complex_num); bi (u_mod complex_num); bi z_pow;
         un op_plus; un (u_neg complex_num);
         fu (u_sum complex_num); fu (u_avg complex_num); fu (u_prod complex_num);
         fu (z_fwd "sqrt"); fu (z_fwd "ln"); fu z_log; fu z_rand; fu (z_fwd "exp");
         fu (z_fwd "sin"); fu (z_fwd "cos"); fu (z_fwd "tan");
         fu (z_fwd_inv "sin" "csc"); fu (z_fwd_inv "cos" "sec"); fu (z_fwd_inv "tan" "cot");
         fu (z_fwd "asin"); fu (z_fwd "acos"); fu (z_fwd "atan");
         fu (z_fwd_inv "asin" "acsc"); fu (z_fwd_inv "acos" "asec"); fu (z_fwd_inv "atan" "acot");
         fu (z_fwd "sinh"); fu (z_fwd "cosh"); fu (z_fwd "tanh");
         fu (z_fwd_inv "sinh" "csch"); fu (z_fwd_inv "cosh" "sech"); fu (z_fwd_inv "tanh" "coth");
         fu (z_fwd "asinh"); fu (z_fwd "acosh"); fu (z_fwd "atanh");
         fu (z_fwd_inv "asinh" "acsch"); fu (z_fwd_inv "acosh" "asech"); fu (z_fwd_inv "atanh" "acoth")]
        (with_config (config_with_complex_number cf true)).
(** complex/mod.rs 413-417: [new_complex] *)
Definition new_complex : res (dctx c64 W) := complex_context (config_with_complex_number config_new true).
End Complex.
