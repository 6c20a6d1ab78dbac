(** * Number types *)
From Coq Require Import List NArith ZArith Bool.
From Verif Require Import ModelBase ModelFloat.
Import ListNotations.
Local Open Scope Z_scope.

(** What the built-in functions use of a number type [N]: the traits of /repo/prexel/src/num.rs (7-90, 254-340) and of
    num_traits ([Zero], [One], [PartialOrd], [ToPrimitive], [FromPrimitive]). The raw operators may panic. *)
Record num (V : Type) := Num {
  n_zero : V; n_one : V;
  n_is_zero : V -> bool; n_is_one : V -> bool;
  n_cmp : V -> V -> option comparison;
  n_add : V -> V -> res V; n_sub : V -> V -> res V; n_mul : V -> V -> res V;
  n_div : V -> V -> res V; n_rem : V -> V -> res V; n_neg : V -> res V;
  n_cadd : V -> V -> option V; n_csub : V -> V -> option V; n_cmul : V -> V -> option V;
  n_cdiv : V -> V -> option V; n_crem : V -> V -> option V; n_cneg : V -> option V;
  n_to_f64 : V -> option f64; n_from_f64 : f64 -> option V; n_from_usize : nat -> option V;
  (* a bound on the number of turns of the loop of [Factorial] (ops/mod.rs 401-404), see ModelOps.v *)
  n_fuel : V -> nat }.
Arguments Num {V}. Arguments n_zero {V}. Arguments n_one {V}. Arguments n_is_zero {V}. Arguments n_is_one {V}.
Arguments n_cmp {V}. Arguments n_add {V}. Arguments n_sub {V}. Arguments n_mul {V}. Arguments n_div {V}.
Arguments n_rem {V}. Arguments n_neg {V}. Arguments n_cadd {V}. Arguments n_csub {V}. Arguments n_cmul {V}.
Arguments n_cdiv {V}. Arguments n_crem {V}. Arguments n_cneg {V}. Arguments n_to_f64 {V}.
Arguments n_from_f64 {V}. Arguments n_from_usize {V}. Arguments n_fuel {V}.

Section Cmp.
Context {V : Type} (n : num V).
Definition n_lt (a b : V) : bool := match n_cmp n a b with Some Lt => true | _ => false end.
Definition n_ge (a b : V) : bool := match n_cmp n a b with Some Gt | Some Eq => true | _ => false end.
Definition n_gt (a b : V) : bool := match n_cmp n a b with Some Gt => true | _ => false end.
End Cmp.

(** ** Machine integers: a value is its mathematical value. *)
Record ity := Ity { signed : bool; bits : Z }.
Definition i8 := Ity true 8. Definition i16 := Ity true 16. Definition i32 := Ity true 32.
Definition i64 := Ity true 64. Definition i128 := Ity true 128.
Definition u8 := Ity false 8. Definition u32 := Ity false 32. Definition u64 := Ity false 64.

Definition imin (t : ity) : Z := if signed t then - 2 ^ (bits t - 1) else 0.
Definition imax (t : ity) : Z := if signed t then 2 ^ (bits t - 1) - 1 else 2 ^ bits t - 1.
Definition in_range (t : ity) (z : Z) : bool := (imin t <=? z) && (z <=? imax t).

(** [z] reduced modulo [2^bits] into the range of the type. *)
Definition wrap (t : ity) (z : Z) : Z := (z - imin t) mod 2 ^ bits t + imin t.

(** The primitive operators [+ - *] and negation: on overflow they panic with overflow checks (debug builds) and wrap
    without. *)
Definition raw (t : ity) (dbg : bool) (z : Z) : res Z :=
  if in_range t z then Ok z else if dbg then Panic else Ok (wrap t z).
(** [/] and [%]: overflow ([MIN / -1], [MIN % -1]) and zero divisors panic in all builds. [Z.quot] truncates. *)
Definition raw_div (t : ity) (a b : Z) : res Z :=
  if b =? 0 then Panic else if in_range t (Z.quot a b) then Ok (Z.quot a b) else Panic.
Definition raw_rem (t : ity) (a b : Z) : res Z :=
  if b =? 0 then Panic else if in_range t (Z.quot a b) then Ok (Z.rem a b) else Panic.
Definition checked (t : ity) (z : Z) : option Z := if in_range t z then Some z else None.
(** [checked_div], [checked_rem]: [None] for a zero divisor and on overflow. *)
Definition checked_div (t : ity) (a b : Z) : option Z :=
  if b =? 0 then None else checked t (Z.quot a b).
Definition checked_rem (t : ity) (a b : Z) : option Z :=
  if b =? 0 then None else if in_range t (Z.quot a b) then Some (Z.rem a b) else None.

(** /repo/prexel/src/num.rs 144-250: the checked operations are the primitive type's. *)
Definition int_num (t : ity) (dbg : bool) : num Z := Num
  0 1 (fun a => a =? 0) (fun a => a =? 1) (fun a b => Some (a ?= b))
  (fun a b => raw t dbg (a + b)) (fun a b => raw t dbg (a - b)) (fun a b => raw t dbg (a * b))
  (raw_div t) (raw_rem t) (fun a => raw t dbg (- a))
  (fun a b => checked t (a + b)) (fun a b => checked t (a - b)) (fun a b => checked t (a * b))
  (checked_div t) (checked_rem t) (fun a => checked t (- a))
  (fun a => Some (f_of_Z a))
  (fun x => match f_trunc_Z x with Some z => checked t z | None => None end)
  (fun k => checked t (Z.of_nat k))
  Z.to_nat.

(** ** [f64] as a number type. num.rs 91-140, 251: "checked" arithmetic is the plain one, except for zero divisors.
    [fuel] is arbitrary: the loop of [Factorial] need not end. *)
Definition f64_num (fuel : nat) : num f64 := Num
  f_zero f_one f_is_zero (fun a => match f_cmp a f_one with Some Eq => true | _ => false end) f_cmp
  (fun a b => Ok (f_add a b)) (fun a b => Ok (f_sub a b)) (fun a b => Ok (f_mul a b))
  (fun a b => Ok (f_div a b)) (fun a b => Ok (f_rem a b)) (fun a => Ok (f_neg a))
  (fun a b => Some (f_add a b)) (fun a b => Some (f_sub a b)) (fun a b => Some (f_mul a b))
  (fun a b => if f_is_zero b then None else Some (f_div a b))
  (fun a b => if f_is_zero b then None else Some (f_rem a b))
  (fun a => Some (f_neg a))
  Some Some (fun k => Some (f_of_Z (Z.of_nat k)))
  (fun _ => fuel).
