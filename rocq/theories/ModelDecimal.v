(** * Decimal numbers: /repo/prexel/src/decimal/decimal_ext.rs and mod.rs

    The type [Decimal] is that of the external crate rust_decimal, which is not modelled: its operations are the fields of
    the record [dlib], about which the theorems state what they need (SpecDecimal.v). *)
From Coq Require Import List NArith ZArith Bool String.
From Verif Require Import ModelBase ModelContext ModelText ModelDefault ModelFloat ModelNum ModelOps.
Import ListNotations.
Local Open Scope Z_scope.

(** What the code uses of rust_decimal. [d_lit c s] is the literal [c * 10^-s], as [dec!] and the conversions from integers
    make it. The checked operations return [None] on overflow and for zero divisors. *)
Record dlib (D : Type) := Dlib {
  d_lit : Z -> N -> D;
  d_cadd : D -> D -> option D; d_csub : D -> D -> option D; d_cmul : D -> D -> option D;
  d_cdiv : D -> D -> option D; d_crem : D -> D -> option D;
  d_neg : D -> D; d_abs : D -> D;
  d_round : D -> D; d_floor : D -> D; d_ceil : D -> D; d_trunc : D -> D; d_fract : D -> D; d_round_dp : N -> D -> D;
  d_cmp : D -> D -> comparison; d_sign_negative : D -> bool;
  d_to_i64 : D -> option Z; d_to_f64 : D -> option f64; d_from_f64 : f64 -> option D }.
Arguments Dlib {D}. Arguments d_lit {D}. Arguments d_cadd {D}. Arguments d_csub {D}. Arguments d_cmul {D}. Arguments d_cdiv {D}.
Arguments d_crem {D}. Arguments d_neg {D}. Arguments d_abs {D}. Arguments d_round {D}. Arguments d_floor {D}. Arguments d_ceil {D}.
Arguments d_trunc {D}. Arguments d_fract {D}. Arguments d_round_dp {D}. Arguments d_cmp {D}. Arguments d_sign_negative {D}.
Arguments d_to_i64 {D}. Arguments d_to_f64 {D}. Arguments d_from_f64 {D}.

Section Decimal.
Context {D W : Type}.
Variable L : dlib D.

(** What a function returning [Option<Decimal>] does; one returning [Decimal] returns [Some]. *)
Definition O := res (option D).
Definition some (x : D) : O := Ok (Some x).
Definition none : O := Ok None.
(** [x?] on an option; the same with a panic for [None]: [x.unwrap()], and the operators [+ - * / %], which panic where the
    checked operations return [None]; [f()?] on a call; [f().unwrap()]. *)
Definition ask (o : option D) (k : D -> O) : O := match o with Some x => k x | None => none end.
Definition must (o : option D) (k : D -> O) : O := match o with Some x => k x | None => Panic end.
Definition call (m : O) (k : D -> O) : O := match m with Ok (Some x) => k x | Ok None => none | Err e => Err e | Panic => Panic end.
Definition call_must (m : O) (k : D -> O) : O := match m with Ok (Some x) => k x | Ok None => Panic | Err e => Err e | Panic => Panic end.
Notation "'let?' x := e 'in' k" := (ask e (fun x => k)) (at level 200, x name).
Notation "'let!' x := e 'in' k" := (must e (fun x => k)) (at level 200, x name).
Notation "'let*' x := e 'in' k" := (call e (fun x => k)) (at level 200, x name).
Notation "'let*!' x := e 'in' k" := (call_must e (fun x => k)) (at level 200, x name).

Definition int (z : Z) : D := d_lit L z 0.
Definition d_add := d_cadd L. Definition d_sub := d_csub L. Definition d_mul := d_cmul L. Definition d_div := d_cdiv L. Definition d_rem := d_crem L.
Definition d_eq (a b : D) : bool := match d_cmp L a b with Eq => true | _ => false end.
Definition d_lt (a b : D) : bool := match d_cmp L a b with Lt => true | _ => false end.
Definition d_gt (a b : D) : bool := match d_cmp L a b with Gt => true | _ => false end.

(** mod.rs 7-64: the constants. [PI], [E] and those made of [PI] are rust_decimal's. *)
Definition TAYLOR : nat := 100.
Definition PRECISION := d_lit L 1 16.
Definition cE := d_lit L 27182818284590452353602874714 28.
Definition cPI := d_lit L 31415926535897932384626433833 28.
Definition PI_2 := d_lit L 62831853071795864769252867666 28.
Definition PI_2_MINUS := d_lit L (-62831853071795864769252867666) 28.
Definition PI_FRACT_2 := d_lit L 15707963267948966192313216916 28.
Definition PI_FRACT_4 := d_lit L 7853981633974483096156608458 28.
Definition PI_3_FRACT_2 := d_lit L 47123889803846898576939650750 28.
Definition LN_10 := d_lit L 23025850929940456840179914546 28.
Definition HALF := d_lit L 5 1.
Definition ONE_FRACT_3 := d_lit L 3333333333333333333333333333 28.
Definition ONE_MINUS := int (-1). Definition ZERO := int 0. Definition ONE := int 1. Definition TWO := int 2.
Definition THREE := int 3. Definition TEN := int 10.
(** [Zero::is_zero], [One::is_one]: equality *)
Definition is_zero (x : D) : bool := d_eq x ZERO.
Definition is_one (x : D) : bool := d_eq x ONE.

(** decimal_ext.rs 39-42 *)
Definition is_integer (x : D) : bool := is_zero (d_fract L x).
(** decimal_ext.rs 524-529: the subtraction panics on overflow *)
Definition approx_eq (x y delta : D) (k : bool -> O) : O := let! d := d_sub x y in k (d_lt (d_abs L d) delta).
(** decimal_ext.rs 531-545 *)
Definition approx (x : D) : O := let r := d_round L x in approx_eq x r PRECISION (fun b => some (if b then r else x)).
(** decimal_ext.rs 44-52 *)
Definition to_radians (x : D) : O := let! c := d_div cPI (int 180) in let! y := d_mul x c in approx y.
Definition to_degrees (x : D) : O := let! c := d_div (int 180) cPI in let! y := d_mul x c in approx y.
(** decimal_ext.rs 54-66 *)
Definition inv (x : D) : O := let! y := d_div ONE x in some y.
Definition checked_inv (x : D) : O := if is_zero x then none else inv x.

(** decimal_ext.rs 108-117: the loop of [checked_powi], on the binary digits of the exponent. *)
Fixpoint powi_loop (result base : D) (e : positive) : O :=
  match e with
  | xH => let? result' := d_mul result base in let? base' := d_mul base base in some result'
  | xO e' => let? base' := d_mul base base in powi_loop result base' e'
  | xI e' => let? result' := d_mul result base in let? base' := d_mul base base in powi_loop result' base' e'
  end.
(** decimal_ext.rs 92-120. [-i64::MIN] panics with overflow checks; without, it is [i64::MIN] again, negative, and the
    recursion does not end: also a panic (stack overflow). *)
Definition checked_powi (x : D) (e : Z) : O :=
  if e =? 0 then some ONE
  else if e =? 1 then some x
  else if e <? 0 then
    let! y := d_div ONE x in
    if e =? imin i64 then Panic
    else if - e =? 1 then some y
    else powi_loop ONE y (Z.to_pos (- e))
  else powi_loop ONE x (Z.to_pos e).

(** decimal_ext.rs 134-142: the Babylonian loop, with a bound on its turns; if it is not over by then, the call is taken to
    not return, shown as a panic. *)
Fixpoint sqrt_loop (fuel : nat) (self x result : D) : O :=
  if d_eq x result then some result else
  match fuel with
  | 0%nat => Panic
  | S fuel' =>
      let x := result in
      let? xr := d_div self result in
      let? xr1 := d_add xr result in
      let? result' := d_mul HALF xr1 in
      sqrt_loop fuel' self x result'
  end.
Variable fuel : nat.
(** decimal_ext.rs 122-145 *)
Definition checked_sqrt (x : D) : O :=
  if d_sign_negative L x then none else
  match d_to_f64 L x with
  | Some f => let? r := d_from_f64 L (f_sqrt f) in sqrt_loop fuel x ZERO r
  | None => none
  end.

(** decimal_ext.rs 147-166 *)
Fixpoint cbrt_loop (turns : nat) (self x : D) : O :=
  match turns with
  | 0%nat => some x
  | S turns' =>
      let? xx := d_mul x x in
      let? x2 := d_mul TWO x in
      let? a := d_div self xx in
      let? b := d_add a x2 in
      let? x' := d_mul b ONE_FRACT_3 in
      cbrt_loop turns' self x'
  end.
Definition checked_cbrt (x : D) : O := if is_one x then some x else cbrt_loop TAYLOR x ONE.

(** decimal_ext.rs 211-220: the terms from [n] on *)
Fixpoint ln_series (turns : nat) (n : Z) (self result : D) : O :=
  match turns with
  | 0%nat => some result
  | S turns' =>
      let* sign := checked_powi ONE_MINUS (n + 1) in
      let? x := d_sub self ONE in
      let* xn := checked_powi x n in
      let? q := d_div xn (int n) in
      let? y := d_mul q sign in
      let? result' := d_add result y in
      ln_series turns' (n + 1) self result'
  end.
(** decimal_ext.rs 190-196 *)
Fixpoint ln_reduce (fuel : nat) (a : D) (n : Z) : res (option (D * Z)) :=
  if d_gt a ONE then
    match fuel with
    | 0%nat => Panic
    | S fuel' => match d_div a TEN with Some a' => ln_reduce fuel' a' (n + 1) | None => Ok None end
    end
  else Ok (Some (a, n)).
(** decimal_ext.rs 179-223. [depth]: of the recursion, which is 1 as the argument has become at most 1. *)
Fixpoint ln_rec (depth : nat) (x : D) : O :=
  if negb (d_gt x ZERO) then none
  else if is_one x then some ZERO
  else if negb (d_lt x ONE) then
    match ln_reduce fuel x 0 with
    | Ok (Some (a, n)) =>
        match depth with
        | 0%nat => Panic
        | S depth' => let* lna := ln_rec depth' a in let? b := d_mul LN_10 (int n) in let? r := d_add lna b in some r
        end
    | Ok None => none
    | Err e => Err e
    | Panic => Panic
    end
  else let* r := ln_series 999 1 x ZERO in approx r.
Definition checked_ln (x : D) : O := ln_rec fuel x.

(** decimal_ext.rs 168-177 *)
Definition checked_log (x base : D) : O :=
  let* a := checked_ln x in
  if d_eq base TEN then let? r := d_div a LN_10 in some r
  else let* b := checked_ln base in let? r := d_div a b in some r.

(** decimal_ext.rs 243-247: [b0] runs 398, 394, ..., 6 *)
Fixpoint exp_loop (turns : nat) (b0 : Z) (a0 result : D) : O :=
  match turns with
  | 0%nat => some result
  | S turns' => let? q := d_div a0 result in let? result' := d_add (int b0) q in exp_loop turns' (b0 - 4) a0 result'
  end.
(** decimal_ext.rs 226-260: after the loop [b0] is 2. *)
Definition checked_exp (x : D) : O :=
  if is_zero x then some ONE
  else if is_one x then some cE
  else
    let? a0 := d_mul x x in
    let* r1 := exp_loop 99 398 a0 (int 402) in
    let? sum := d_sub TWO x in
    let? q := d_div a0 r1 in
    let? r2 := d_add sum q in
    let? xx := d_mul TWO x in
    let? q2 := d_div xx r2 in
    let? r3 := d_add ONE q2 in
    approx r3.

(** decimal_ext.rs 68-90: [to_i64().unwrap()] panics for an integer outside [i64]. *)
Definition checked_powd (x e : D) : O :=
  if is_integer e then match d_to_i64 L e with Some z => checked_powi x z | None => Panic end
  else if is_zero x then some ONE
  else if is_one x then some x
  else if d_eq x cE then checked_exp e
  else let* l := checked_ln x in let? b := d_mul l e in checked_exp b.

(** decimal_ext.rs 320-323 *)
Fixpoint sin_series (turns : nat) (n : Z) (xx factor result : D) : O :=
  match turns with
  | 0%nat => some result
  | S turns' =>
      let! q := d_div (d_neg L xx) (int ((2 * n + 1) * (2 * n))) in
      let! factor' := d_mul factor q in
      let! result' := d_add result factor' in
      sin_series turns' (n + 1) xx factor' result'
  end.
(** decimal_ext.rs 293-326; [||] evaluates from the left and stops at the first that holds. *)
Definition checked_sin (x : D) : O :=
  let! r := d_rem x PI_2 in
  let rest :=
    approx_eq r PI_FRACT_2 PRECISION (fun b => if b then some ONE else
    approx_eq r PI_3_FRACT_2 PRECISION (fun b => if b then some ONE_MINUS else
    approx_eq (d_abs L r) PI_FRACT_2 PRECISION (fun b => if b then some ONE_MINUS else
    let! xx := d_mul r r in
    let* s := sin_series 99 1 xx r r in
    approx s))) in
  if d_eq r ZERO then some ZERO else
  approx_eq (d_abs L r) cPI PRECISION (fun b => if b then some ZERO else
  approx_eq (d_abs L r) PI_2 PRECISION (fun b => if b then some ZERO else rest)).

(** decimal_ext.rs 345-348 *)
Fixpoint cos_series (turns : nat) (n : Z) (xx factor result : D) : O :=
  match turns with
  | 0%nat => some result
  | S turns' =>
      let! q := d_div (d_neg L xx) (int (2 * n * (2 * n - 1))) in
      let! factor' := d_mul factor q in
      let! result' := d_add result factor' in
      cos_series turns' (n + 1) xx factor' result'
  end.
(** decimal_ext.rs 328-351 *)
Definition checked_cos (x : D) : O :=
  let! r := d_rem x PI_2 in
  if is_zero r then some ONE else
  approx_eq r PI_FRACT_2 PRECISION (fun b => if b then some ZERO else
  let! xx := d_mul r r in
  let! factor := d_div (d_neg L xx) TWO in
  let! result := d_add ONE factor in
  let* s := cos_series 98 2 xx factor result in
  approx s).
(** decimal_ext.rs 353-361 *)
Definition checked_tan (x : D) : O :=
  let* c := checked_cos x in
  if is_zero c then none else let* s := checked_sin x in let! r := d_div s c in approx r.

(** decimal_ext.rs 437-444: [i] runs from 100 to 2 *)
Fixpoint atan_loop (turns : nat) (i : Z) (self result : D) : O :=
  match turns with
  | 0%nat => some result
  | S turns' =>
      let! z := d_mul self (int (i - 1)) in
      let! z2 := d_mul z z in
      let! q := d_div z2 result in
      let! n2 := d_mul TWO (int i) in
      let! c := d_sub n2 THREE in
      let! result' := d_add q c in
      atan_loop turns' (i - 1) self result'
  end.
(** decimal_ext.rs 411-448. [depth]: of the recursion, as for [ln_rec]. *)
Fixpoint atan_rec (depth : nat) (x : D) : O :=
  if is_zero x then some ZERO
  else if is_one x then some PI_FRACT_4
  else if d_eq x ONE_MINUS then some (d_neg L PI_FRACT_4)
  else if d_lt x ONE_MINUS then
    match depth with
    | 0%nat => Panic
    | S depth' => let! i := d_div ONE x in let* a := atan_rec depth' i in let! r := d_sub (d_neg L PI_FRACT_2) a in some r
    end
  else if d_gt x ONE then
    match depth with
    | 0%nat => Panic
    | S depth' => let! i := d_div ONE x in let* a := atan_rec depth' i in let! r := d_sub PI_FRACT_2 a in some r
    end
  else
    let! t := d_mul TWO (int 100) in
    let! r0 := d_sub t ONE in
    let* r1 := atan_loop 99 100 x r0 in
    let! r2 := d_div x r1 in
    approx r2.
Definition atan (x : D) : O := atan_rec fuel x.
(** decimal_ext.rs 450-473: [self] is y. *)
Definition atan2 (y x : D) : O :=
  if is_zero y && is_zero x then some ZERO
  else if is_zero x then some (if d_gt y ZERO then PI_2 else PI_2_MINUS)
  else
    let! q := d_div y x in
    let* a := atan q in
    if d_gt x ZERO then some a
    else if negb (d_lt y ZERO) then let! r := d_add a cPI in some r
    else let! r := d_sub a cPI in some r.
(** decimal_ext.rs 363-385 *)
Definition asin (x : D) : O :=
  if d_lt x ONE_MINUS || d_gt x ONE then none
  else if is_zero x then some ZERO
  else if is_one x then some PI_FRACT_2
  else if d_eq x ONE_MINUS then some (d_neg L PI_FRACT_2)
  else
    let! xx := d_mul x x in
    let! d := d_sub ONE xx in
    let* a0 := checked_sqrt d in
    let! b0 := d_add a0 ONE in
    let! q := d_div x b0 in
    let* a := atan q in
    let! r := d_mul TWO a in
    approx r.
(** decimal_ext.rs 387-409 *)
Definition acos (x : D) : O :=
  if d_lt x ONE_MINUS || d_gt x ONE then none
  else if is_zero x then some PI_FRACT_2
  else if is_one x then some ZERO
  else if d_eq x ONE_MINUS then some cPI
  else
    let! xx := d_mul x x in
    let! d := d_sub ONE xx in
    let* a0 := checked_sqrt d in
    let! b0 := d_add ONE x in
    let! q := d_div a0 b0 in
    let* a := atan q in
    let! r := d_mul TWO a in
    approx r.
(** decimal_ext.rs 475-494 *)
Definition sinh (x : D) : O :=
  let* e0 := checked_exp x in let* e1 := checked_exp (d_neg L x) in let! d := d_sub e0 e1 in let! r := d_div d TWO in some r.
Definition cosh (x : D) : O :=
  let* e0 := checked_exp x in let* e1 := checked_exp (d_neg L x) in let! d := d_add e0 e1 in let! r := d_div d TWO in some r.
Definition tanh (x : D) : O := let* s := sinh x in let* c := cosh x in let! r := d_div s c in some r.
(** decimal_ext.rs 496-500 *)
Definition asinh (x : D) : O :=
  let! x2 := d_mul x x in
  let! y := d_add x2 ONE in
  let*! s := checked_sqrt y in
  let! z := d_add x s in
  let*! r := checked_ln z in some r.
(** decimal_ext.rs 502-510 *)
Definition acosh (x : D) : O :=
  if d_lt x ONE then none else
  let! x2 := d_mul x x in
  let! y := d_sub x2 ONE in
  let* s := checked_sqrt y in
  let! z := d_add x s in
  checked_ln z.
(** decimal_ext.rs 512-521 *)
Definition atanh (x : D) : O :=
  if d_lt x ONE_MINUS || d_gt x ONE then none else
  let! x0 := d_add ONE x in
  let! x1 := d_sub ONE x in
  let! q := d_div x0 x1 in
  let* l := checked_ln q in
  let? r := d_mul l HALF in some r.

(** decimal_ext.rs 550-566 *)
Definition P_rest : list D :=
  [d_lit L 57156235665862923517 18; d_lit L (-59597960355475491248) 18; d_lit L 14136097974741747174 18;
   d_lit L (-49191381609762019978) 20; d_lit L 33994649984811888699 24; d_lit L 46523628927048575665 24;
   d_lit L (-98374475304879564677) 24; d_lit L 15808870322491248884 23; d_lit L (-21026444172410488319) 23;
   d_lit L 2174396181152126432 22; d_lit L (-16431810653676389022) 23; d_lit L 84418223983852743293 24;
   d_lit L (-2619083840158140867) 23; d_lit L 36899182659531622704 25].
(** decimal_ext.rs 577-580 *)
Fixpoint gamma_sum (x : D) (n : Z) (cs : list D) (factor : D) : O :=
  match cs with
  | [] => some factor
  | c :: cs' => let! s := d_add x (int n) in let! q := d_div c s in let! f := d_add factor q in gamma_sum x (n + 1) cs' f
  end.
(** decimal_ext.rs 547-590. [depth]: of the recursion, as for [ln_rec]. *)
Fixpoint gamma_rec (depth : nat) (x : D) : O :=
  if d_lt x HALF then
    match depth with
    | 0%nat => Panic
    | S depth' =>
        let! px := d_mul cPI x in
        let* s := checked_sin px in
        let! q := d_div cPI s in
        let! y := d_sub ONE x in
        let* g := gamma_rec depth' y in
        let! r := d_mul q g in some r
    end
  else
    let! x := d_sub x ONE in
    let* factor := gamma_sum x 1 P_rest (d_lit L 99999999999999709182 20) in
    let! t0 := d_add x (d_lit L 47421875 7) in
    let! t := d_add t0 HALF in
    let! tp := d_mul TWO cPI in
    let* a := checked_sqrt tp in
    let! xh := d_add x HALF in
    let* b := checked_powd t xh in
    let! ab := d_mul a b in
    let* c := checked_exp (d_neg L t) in
    let! abc := d_mul ab c in
    let! r := d_mul abc factor in some r.
Definition gamma (x : D) : O := gamma_rec fuel x.

(** decimal_ext.rs 281-284 *)
Fixpoint fact_loop (fuel : nat) (result n : D) : res (option (D * D)) :=
  if d_gt n ZERO then
    match fuel with
    | 0%nat => Panic
    | S fuel' =>
        match d_mul result n with
        | Some result' => match d_sub n ONE with Some n' => fact_loop fuel' result' n' | None => Panic end
        | None => Ok None
        end
    end
  else Ok (Some (result, n)).
(** decimal_ext.rs 262-291 *)
Definition checked_factorial (x : D) : O :=
  if d_sign_negative L x then none
  else if d_eq x TWO || d_eq x ONE || d_eq x ZERO then some ONE
  else if d_lt x ONE then let! y := d_add x ONE in let* g := gamma y in some (d_round_dp L 15 g)
  else
    let! n0 := d_sub x ONE in
    match fact_loop fuel x n0 with
    | Ok (Some (result, n)) =>
        if negb (is_zero n) then
          let! y := d_add n ONE in let* g := gamma y in let! r := d_mul result g in some (d_round_dp L 15 r)
        else some (d_round_dp L 15 result)
    | Ok None => none
    | Err e => Err e
    | Panic => Panic
    end.

(** ** mod.rs: the operators and functions *)
Definition or_over (m : O) : res D := match m with Ok (Some x) => Ok x | Ok None => Err Overflow | Err e => Err e | Panic => Panic end.
Definition opt (o : option D) : O := Ok o.
(** A function that does not return an option. *)
Definition plain (m : O) : res D := or_over m.

(** mod.rs 307-450 *)
Definition x_add : bfunc D W := binop "+" LOW LeftA (fun x y => or_over (opt (d_cadd L x y))).
Definition x_sub : bfunc D W := binop "-" LOW LeftA (fun x y => or_over (opt (d_csub L x y))).
Definition x_mul : bfunc D W := binop "*" MEDIUM LeftA (fun x y => or_over (opt (d_cmul L x y))).
Definition x_div : bfunc D W := binop "/" MEDIUM LeftA (fun x y => or_over (opt (d_cdiv L x y))).
Definition x_mod : bfunc D W := binop "mod" MEDIUM LeftA (fun x y => or_over (opt (d_crem L x y))).
(** mod.rs 452-479 *)
Definition x_pow : bfunc D W := binop "^" HIGH RightA (fun x y => or_over (checked_powd x y)).
(** mod.rs 481-502 *)
Definition x_neg : ufunc D W := unop "-" Prefix (fun x => Ok (d_neg L x)).
(** mod.rs 504-527 *)
Definition x_fact : ufunc D W := unop "!" Postfix (fun x => or_over (checked_factorial x)).

Definition panic_op (f : D -> D -> option D) (x y : D) : res D := match f x y with Some z => Ok z | None => Panic end.
(** mod.rs 529-581: the operators [+] and [*], which panic on overflow *)
Definition x_sum : func D W := fun_ "sum" (fun args => rbind (fold_args (panic_op (d_cadd L)) None args) or_no_args).
Definition x_prod : func D W := fun_ "product" (fun args => rbind (fold_args (panic_op (d_cmul L)) None args) or_no_args).
(** mod.rs 583-611 *)
Definition x_avg : func D W := fun_ "avg" (fun args =>
  rbind (fold_args (panic_op (d_cadd L)) None args) (fun s =>
  match s with
  | Some v => panic_op (d_cdiv L) v (int (Z.of_nat (List.length args)))
  | None => Err InvalidArgumentCount
  end)).

(** mod.rs 66-296: the four forwarding macros *)
Definition fwd_checked (name : string) (m : D -> O) : func D W := fun_ name (one_arg (fun x => or_over (m x))).
Definition fwd_checked_inv (name : string) (m : D -> O) : func D W := fun_ name (one_arg (fun x => or_over (let* y := m x in checked_inv y))).
Definition fwd (name : string) (m : D -> D) : func D W := fun_ name (one_arg (fun x => Ok (m x))).
Definition fwd_inv (name : string) (m : D -> O) : func D W := fun_ name (one_arg (fun x => or_over (let* y := m x in inv y))).
(** mod.rs 708-872: [impl_checked_trig!]; [impl_checked_trig_rec!] is the same, the inversion is commented out. *)
Definition trig_checked (name : string) (m : D -> O) : func D W := fun_ name (one_arg (fun x => or_over (let* r := to_radians x in m r))).
(** mod.rs 911-1019: [impl_arc_trig_rec!], [impl_checked_arc_trig_rec!] *)
Definition arc_rec (name : string) (m : D -> O) : func D W := fwd_checked name m.
Definition arc_rec_checked (name : string) (m : D -> O) : func D W := fun_ name (one_arg (fun x => or_over (let* i := inv x in m i))).

(** mod.rs 661-683 *)
Definition x_log : func D W := fun_ "log" (fun args =>
  match args with
  | [x] => or_over (checked_log x TEN)
  | [x; b] => or_over (checked_log x b)
  | _ => Err InvalidArgumentCount
  end).
(** mod.rs 1033-1053 *)
Definition x_atan : func D W := fun_ "atan" (fun args =>
  match args with
  | [x] => or_over (atan x)
  | [y; x] => or_over (atan2 y x)
  | _ => Err InvalidArgumentCount
  end).

(** The generic functions that the context uses (max, min, random, unary plus) see [Decimal] through num_traits; the fields
    that these do not use are not rust_decimal's. *)
Definition dec_num : num D := Num ZERO ONE is_zero is_one (fun a b => Some (d_cmp L a b))
  (panic_op (d_cadd L)) (panic_op (d_csub L)) (panic_op (d_cmul L)) (panic_op (d_cdiv L)) (panic_op (d_crem L)) (fun a => Ok (d_neg L a))
  (d_cadd L) (d_csub L) (d_cmul L) (d_cdiv L) (d_crem L) (fun a => Some (d_neg L a))
  (d_to_f64 L) (d_from_f64 L) (fun k => Some (int (Z.of_nat k))) (fun _ => fuel).

Variable random : W -> f64 * W.
Variable E : env.
Variable dbg : bool.
(** mod.rs 1157-1216: [with_config_decimal]; [new_decimal] is this with [Config::new()]. *)
Definition dec_steps : list (dctx D W -> res unit * dctx D W) :=
  let F := add_function E dbg in let U := add_unary_function E dbg in let B := add_binary_function E dbg in
  [add_constant E dbg (lit "PI") cPI; add_constant E dbg (lit "E") cE;
   B x_add; B x_sub; B x_mul; B x_div; B x_pow; B x_mod; U op_plus; U x_neg; U x_fact;
   F x_sum; F x_avg; F x_prod; F (op_max dec_num); F (op_min dec_num); F (fwd_checked "cbrt" checked_cbrt); F (fwd_checked "sqrt" checked_sqrt);
   F (fwd_checked "ln" checked_ln); F x_log; F (op_rand dec_num random); F (fwd "ceil" (d_ceil L)); F (fwd "floor" (d_floor L));
   F (fwd "truncate" (d_trunc L)); F (fwd "round" (d_round L)); F (fwd_checked "exp" checked_exp);
   F (fwd_checked "to_radians" to_radians); F (fwd_checked "to_degrees" to_degrees);
   F (trig_checked "sin" checked_sin); F (trig_checked "cos" checked_cos); F (trig_checked "tan" checked_tan);
   F (trig_checked "csc" checked_sin); F (trig_checked "sec" checked_cos); F (trig_checked "cot" checked_tan);
   F (trig_checked "asin" asin); F (trig_checked "acos" acos); F x_atan;
   F (arc_rec_checked "acsc" asin); F (arc_rec_checked "asec" acos); F (arc_rec "acot" atan);
   F (fwd_checked "sinh" sinh); F (fwd_checked "cosh" cosh); F (fwd_checked "tanh" tanh);
   F (fwd_checked_inv "csch" sinh); F (fwd_checked_inv "sech" cosh); F (fwd_checked_inv "coth" tanh);
   F (fwd_checked "asinh" asinh); F (fwd_checked "acosh" acosh); F (fwd_checked "atanh" atanh);
   F (fwd_inv "acsch" asinh); F (fwd_checked_inv "asech" acosh); F (fwd_checked_inv "acoth" atanh)].
Definition decimal_context (cf : config) : res (dctx D W) := build dec_steps (with_config cf).
End Decimal.
