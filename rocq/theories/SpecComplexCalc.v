(** * Specification: what the complex calculator computes

    A reference interpreter for expression trees over pairs of doubles, as a relation between an expression and its result: the textbook
    formulas of complex arithmetic, each step by IEEE 754's rounded operations (SpecRound), num_complex's functions, and errors. *)
From Coq Require Import List NArith ZArith QArith Bool String.
From Coq Require Import Floats.SpecFloat.
From Verif Require Import ModelBase ModelFloat ModelComplex SpecExpr SpecText SpecDecimal SpecDouble SpecFunctions SpecRound SpecComplex SpecCalculator.
From Verif Require Import SpecDoubleCalc.
Import ListNotations.
Local Open Scope string_scope.
Local Open Scope list_scope.
Local Open Scope Z_scope.

Notation complex := (f64 * f64)%type (only parsing).

(** IEEE 754's division, by zero too. *)
Definition ieee_division (x y z : f64) : Prop :=
  if zero_double y then
    z = match x with S754_nan | S754_zero _ => S754_nan | _ => S754_infinity (xorb (negative x) (negative y)) end
  else ieee_quotient x y z.
(** Rounding towards zero; a zero is positive. *)
Definition ieee_whole (t k : f64) : Prop :=
  if finite t then forall p, stands_for t p -> stands_for k (inject_Z (truncated p)) /\ (truncated p = 0 -> negative k = false)
  else k = S754_nan.

(** [(a + bi) + (c + di) = (a + c) + (b + d)i]; [(a + bi)(c + di) = (ac - bd) + (ad + bc)i];
    [(a + bi) / (c + di) = (ac + bd) / n + (bc - ad) / n i] with [n = cc + dd]. *)
Definition complex_sum (x y z : complex) : Prop := ieee_sum (fst x) (fst y) (fst z) /\ ieee_sum (snd x) (snd y) (snd z).
Definition complex_difference (x y z : complex) : Prop := ieee_difference (fst x) (fst y) (fst z) /\ ieee_difference (snd x) (snd y) (snd z).
Definition complex_product (x y z : complex) : Prop :=
  exists ac bd ad bc, ieee_product (fst x) (fst y) ac /\ ieee_product (snd x) (snd y) bd /\ ieee_product (fst x) (snd y) ad /\ ieee_product (snd x) (fst y) bc /\
    ieee_difference ac bd (fst z) /\ ieee_sum ad bc (snd z).
Definition square_size (y : complex) (n : f64) : Prop := exists cc dd, ieee_product (fst y) (fst y) cc /\ ieee_product (snd y) (snd y) dd /\ ieee_sum cc dd n.
Definition complex_quotient (x y z : complex) : Prop :=
  exists ac bd ad bc s t n, ieee_product (fst x) (fst y) ac /\ ieee_product (snd x) (snd y) bd /\ ieee_product (fst x) (snd y) ad /\ ieee_product (snd x) (fst y) bc /\
    ieee_sum ac bd s /\ ieee_difference bc ad t /\ square_size y n /\ ieee_division s n (fst z) /\ ieee_division t n (snd z).
(** [1 / (c + di) = c / n - d / n i] *)
Definition complex_reciprocal (y z : complex) : Prop := exists n, square_size y n /\ ieee_division (fst y) n (fst z) /\ ieee_division (opposite (snd y)) n (snd z).
(** [x - y k] where [k] is [x / y] with both parts rounded towards zero *)
Definition complex_remainder (x y z : complex) : Prop :=
  exists q k p, complex_quotient x y q /\ ieee_whole (fst q) (fst k) /\ ieee_whole (snd q) (snd k) /\ complex_product y k p /\ complex_difference x p z.
Definition complex_zero (x : complex) : bool := zero_double (fst x) && zero_double (snd x).

(** A value with this property. *)
Definition complex_with (P : complex -> Prop) (r : res complex) : Prop := exists z, r = Ok z /\ P z.
(** A running total. *)
Fixpoint in_turn (op : complex -> complex -> complex -> Prop) (a : complex) (xs : list complex) (z : complex) : Prop :=
  match xs with [] => z = a | x :: xs' => exists b, op a x b /\ in_turn op b xs' z end.

(** num_complex's functions that are there by their own names; SpecComplex's [reciprocals] are those whose results' reciprocals are. *)
Definition own_functions : list string :=
  ["sqrt"; "ln"; "exp"; "sin"; "cos"; "tan"; "asin"; "acos"; "atan"; "sinh"; "cosh"; "tanh"; "asinh"; "acosh"; "atanh"].

Section Complexes.
(** num_complex's functions and the variables. *)
Variable L : clib.
Variable vars : str -> option complex.

Definition complex_operation (o : str) (x y : complex) (r : res complex) : Prop :=
  if named o "+" then complex_with (complex_sum x y) r
  else if named o "-" then complex_with (complex_difference x y) r
  else if named o "*" then complex_with (complex_product x y) r
  else if named o "/" then if complex_zero y then r = Err DivisionByZero else complex_with (complex_quotient x y) r
  else if named o "mod" then if complex_zero y then r = Err DivisionByZero else complex_with (complex_remainder x y) r
  else if named o "^" then r = Ok (c_powc L x y)
  else False.

Definition with_one (f : complex -> res complex -> Prop) (xs : list complex) (r : res complex) : Prop :=
  match xs with [x] => f x r | _ => r = Err InvalidArgumentCount end.
Definition complex_call (f : str) (xs : list complex) (r : res complex) : Prop :=
  if named f "sum" then match xs with x :: xs' => complex_with (in_turn complex_sum x xs') r | [] => r = Err InvalidArgumentCount end
  else if named f "product" then match xs with x :: xs' => complex_with (in_turn complex_product x xs') r | [] => r = Err InvalidArgumentCount end
  else if named f "avg" then
    match xs with
    | x :: xs' => exists s k, in_turn complex_sum x xs' s /\ rounds (inject_Z (Z.of_nat (List.length xs))) k /\ complex_with (complex_quotient s (k, S754_zero false)) r
    | [] => r = Err InvalidArgumentCount
    end
  else if named f "log" then
    match xs with
    | [x] => exists ten, stands_for ten 10 /\ r = Ok (c_log L x ten)
    | [x; b] => r = if zero_double (snd b) then Err InvalidInput else Ok (c_log L x (fst b))
    | _ => r = Err InvalidArgumentCount
    end
  else (exists m, In m own_functions /\ named f m = true /\ with_one (fun x r => r = Ok (c_method L (lit m) x)) xs r) \/
       (exists nm m, In (nm, m) reciprocals /\ named f nm = true /\ with_one (fun x => complex_with (complex_reciprocal (c_method L (lit m) x))) xs r).

Fixpoint complex_all (ps : list (res complex -> Prop)) : res (list complex) -> Prop :=
  match ps with
  | [] => fun r => r = Ok []
  | p :: ps' => followed p (fun x => followed (complex_all ps') (fun xs r => r = Ok (x :: xs)))
  end.
Fixpoint complex_worth (e : expr complex) : res complex -> Prop :=
  match e with
  | ENum x => fun r => r = Ok x
  | EVar x => fun r => r = match vars x with Some v => Ok v | None => Err InvalidInput end
  | EConst x =>
      if named x "pi" then complex_with (fun z => rounds (31415926535897932384626433832795 # 10000000000000000000000000000000) (fst z) /\ snd z = S754_zero false)
      else if named x "e" then complex_with (fun z => rounds (27182818284590452353602874713527 # 10000000000000000000000000000000) (fst z) /\ snd z = S754_zero false)
      else if named x "i" then complex_with (fun z => fst z = S754_zero false /\ stands_for (snd z) 1)
      else fun _ => False
  | EGroup _ e => complex_worth e
  | ECall f _ args => followed (complex_all (map complex_worth args)) (complex_call f)
  | EPre u e => followed (complex_worth e) (fun x r => r = Ok (if named u "-" then (opposite (fst x), opposite (snd x)) else x))
  | EPost _ _ => fun _ => False
  | EBin o l r => followed (complex_worth l) (fun x => followed (complex_worth r) (fun y => complex_operation o x y))
  | EMul l r => followed (complex_worth l) (fun x => followed (complex_worth r) (fun y => complex_with (complex_product x y)))
  end.
End Complexes.

(** The names in an expression: all that a complex context has, but random. *)
Fixpoint complex_known (e : expr complex) : Prop :=
  match e with
  | ENum _ | EVar _ => True
  | EConst x => one_of ["pi"; "e"; "i"] x
  | EGroup _ e => complex_known e
  | ECall f _ args => one_of (["sum"; "product"; "avg"; "log"] ++ own_functions ++ map fst reciprocals) f /\
      (fix all es := match es with [] => True | e :: es' => complex_known e /\ all es' end) args
  | EPre u e => one_of ["+"; "-"] u /\ complex_known e
  | EPost _ _ => False
  | EBin o l r => one_of ["+"; "-"; "*"; "/"; "mod"; "^"] o /\ complex_known l /\ complex_known r
  | EMul l r => complex_known l /\ complex_known r
  end.

(** For when the result is determined: pairs of doubles. *)
Definition a_complex (z : complex) : Prop := a_number (fst z) /\ a_number (snd z).
Definition proper_library (L : clib) : Prop := (forall m x, a_complex (c_method L m x)) /\ (forall x y, a_complex (c_powc L x y)) /\ (forall x b, a_complex (c_log L x b)).
Fixpoint complex_plain (e : expr complex) : Prop :=
  match e with
  | ENum x => a_complex x
  | EVar _ | EConst _ => True
  | EGroup _ e | EPre _ e | EPost e _ => complex_plain e
  | ECall _ _ args => (fix all es := match es with [] => True | e :: es' => complex_plain e /\ all es' end) args
  | EBin _ l r | EMul l r => complex_plain l /\ complex_plain r
  end.
