(** * Specification: what the floating-point calculator computes

    A reference interpreter for expression trees over doubles, as a relation between an expression and its result: IEEE 754's operations
    (SpecRound), the platform's functions between conversions of degrees and roundings to near integers (SpecFunctions), and errors. *)
From Coq Require Import List NArith ZArith QArith Qabs Bool String.
From Coq Require Import Floats.SpecFloat.
From Verif Require Import ModelBase ModelContext ModelFloat ModelGamma ModelNum SpecExpr SpecText SpecOps SpecDecimal SpecDouble SpecFunctions SpecRound SpecCalculator.
Import ListNotations.
Local Open Scope string_scope.
Local Open Scope list_scope.
Local Open Scope Z_scope.

(** A number with this property. *)
Definition number_with (P : f64 -> Prop) (r : res f64) : Prop := exists z, r = Ok z /\ P z.
(** First one result, then, unless that is a failure, another one. *)
Definition followed {A B} (first : res A -> Prop) (next : A -> res B -> Prop) (r : res B) : Prop :=
  exists a, first a /\ match a with Ok x => next x r | Err k => r = Err k | Panic => r = Panic end.
(** A running total, rounded at each step. *)
Fixpoint stepwise (op : f64 -> f64 -> f64 -> Prop) (a : f64) (xs : list f64) (z : f64) : Prop :=
  match xs with [] => z = a | x :: xs' => exists b, op a x b /\ stepwise op b xs' z end.

Definition checked_names (docs : bool) : list string :=
  ["abs"; "floor"; "ceil"; "round"; if docs then "trunc" else "truncate"; if docs then "signum" else "sign"].
Definition common_names : list string := map fst function_table ++ ["sum"; "product"; "avg"; "max"; "min"; "log"; "atan"].

Section Doubles.
(** The platform's functions, the variables, how far factorials are described; whether the six functions that only checked contexts
    have are there, and how the names of two of them are chosen. *)
Variable L : libm.
Variable vars : str -> option f64.
Variable turns : nat.
Variables checked docs : bool.

Definition operation_worth (o : str) (x y : f64) (r : res f64) : Prop :=
  if named o "+" then number_with (ieee_sum x y) r
  else if named o "-" then number_with (ieee_difference x y) r
  else if named o "*" then number_with (ieee_product x y) r
  else if named o "/" then if zero_double y then r = Err DivisionByZero else number_with (ieee_quotient x y) r
  else if named o "mod" then if zero_double y then r = Err DivisionByZero else number_with (ieee_remainder x y) r
  else if named o "^" then r = Ok (powf L x y)
  else False.

(** Factorials: those of negative numbers are errors, those of 0 and 1 are 1; otherwise [x (x - 1) (x - 2) ...] while the factors are
    at least 1, and for a number that is not whole the code's gamma function (C85) of one more than what is left. Nothing is said of
    numbers above 2^53, infinity and NaN. *)
Definition factorial_worth (x : f64) (r : res f64) : Prop :=
  (negative x = true -> zero_double x = false -> r = Err NegativeValue) /\
  forall q, stands_for x q ->
    ((q == 0 \/ q == 1)%Q -> number_with (fun z => stands_for z 1) r) /\
    ((0 < q < 1)%Q -> exists s, rounds (q + 1) s /\ r = Ok (gamma L s)) /\
    (forall k, (1 <= k <= turns)%nat -> (inject_Z (Z.of_nat k) <= q < inject_Z (Z.of_nat k) + 1)%Q -> (1 < q)%Q -> (q <= inject_Z (2 ^ 53))%Q ->
       exists fs p, Forall2 stands_for fs (map (fun i => q - inject_Z (Z.of_nat i))%Q (seq 1 (pred k))) /\ stepwise ieee_product x fs p /\
         ((q == inject_Z (Z.of_nat k))%Q -> r = Ok p) /\
         (~ (q == inject_Z (Z.of_nat k))%Q -> exists s, rounds (q - inject_Z (Z.of_nat k) + 1) s /\ number_with (ieee_product p (gamma L s)) r)).

(** To an integer: the argument, or the integer within 1e-10 of it, is rounded; zeros keep the argument's sign. *)
Definition integer_worth (which : Q -> Z -> Prop) (x : f64) (r : res f64) : Prop :=
  if finite x then exists s, snapped x s /\ forall q, stands_for s q ->
    number_with (fun z => exists k, which q k /\ stands_for z (inject_Z k) /\ negative z = negative x) r
  else r = Err NAN.
Definition of_one (f : f64 -> res f64 -> Prop) (xs : list f64) (r : res f64) : Prop :=
  match xs with [x] => f x r | _ => r = Err InvalidArgumentCount end.
(** The first argument than which no later one is [better]. *)
Definition pick (better : f64 -> f64 -> bool) (xs : list f64) (r : res f64) : Prop :=
  match xs with
  | x :: y :: xs' => r = Ok (fold_left (fun a v => if better v a then v else a) (y :: xs') x)
  | _ => r = Err InvalidArgumentCount
  end.

Definition call_worth (f : str) (xs : list f64) (r : res f64) : Prop :=
  if named f "sum" then match xs with x :: xs' => number_with (stepwise ieee_sum x xs') r | [] => r = Err InvalidArgumentCount end
  else if named f "product" then match xs with x :: xs' => number_with (stepwise ieee_product x xs') r | [] => r = Err InvalidArgumentCount end
  else if named f "avg" then
    match xs with
    | x :: xs' => exists s k, stepwise ieee_sum x xs' s /\ rounds (inject_Z (Z.of_nat (List.length xs))) k /\ number_with (ieee_quotient s k) r
    | [] => r = Err InvalidArgumentCount
    end
  else if named f "max" then pick (fun v a => SFltb a v) xs r
  else if named f "min" then pick SFltb xs r
  else if named f "log" then
    match xs with
    | [x] => r = finite_or_nan (platform "log10" L x)
    | [x; b] => r = finite_or_nan (log_base L x b)
    | _ => r = Err InvalidArgumentCount
    end
  else if named f "atan" then
    match xs with
    | [x] => r = finite_or_nan (platform "to_degrees" L (platform "atan" L x))
    | [y; x] => r = if zero_double y && zero_double x then Err NAN else finite_or_nan (platform "to_degrees" L (atan2 L y x))
    | _ => r = Err InvalidArgumentCount
    end
  else if checked && named f "abs" then of_one (fun x r => r = Ok (if SFltb x (S754_zero false) then opposite x else x)) xs r
  else if checked && named f "floor" then of_one (integer_worth is_floor) xs r
  else if checked && named f "ceil" then of_one (integer_worth is_ceiling) xs r
  else if checked && named f "round" then of_one (integer_worth is_rounded) xs r
  else if checked && named f (if docs then "trunc" else "truncate") then of_one (integer_worth (fun q k => k = truncated q)) xs r
  else if checked && named f (if docs then "signum" else "sign") then
    of_one (fun x r => if finite x then number_with (fun z => stands_for z (if negative x then -1 else 1)) r else r = Err NAN) xs r
  else exists name fm, In (name, fm) function_table /\ named f name = true /\ of_one (computes L fm) xs r.

Fixpoint all_worth (ps : list (res f64 -> Prop)) : res (list f64) -> Prop :=
  match ps with
  | [] => fun r => r = Ok []
  | p :: ps' => followed p (fun x => followed (all_worth ps') (fun xs r => r = Ok (x :: xs)))
  end.
Fixpoint worth (e : expr f64) : res f64 -> Prop :=
  match e with
  | ENum x => fun r => r = Ok x
  | EVar x => fun r => r = match vars x with Some v => Ok v | None => Err InvalidInput end
  | EConst x =>
      if named x "pi" then number_with (rounds (31415926535897932384626433832795 # 10000000000000000000000000000000))
      else if named x "e" then number_with (rounds (27182818284590452353602874713527 # 10000000000000000000000000000000))
      else fun _ => False
  | EGroup _ e => worth e
  | ECall f _ args => followed (all_worth (map worth args)) (call_worth f)
  | EPre u e => followed (worth e) (fun x r => r = Ok (if named u "-" then opposite x else x))
  | EPost e _ => followed (worth e) factorial_worth
  | EBin o l r => followed (worth l) (fun x => followed (worth r) (fun y => operation_worth o x y))
  | EMul l r => followed (worth l) (fun x => followed (worth r) (fun y => number_with (ieee_product x y)))
  end.

(** The names in an expression. *)
Fixpoint known (e : expr f64) : Prop :=
  match e with
  | ENum _ | EVar _ => True
  | EConst x => one_of ["pi"; "e"] x
  | EGroup _ e => known e
  | ECall f _ args => one_of (common_names ++ if checked then checked_names docs else []) f /\
      (fix all es := match es with [] => True | e :: es' => known e /\ all es' end) args
  | EPre u e => one_of ["+"; "-"] u /\ known e
  | EPost e u => one_of ["!"] u /\ known e
  | EBin o l r => one_of ["+"; "-"; "*"; "/"; "mod"; "^"] o /\ known l /\ known r
  | EMul l r => known l /\ known r
  end.
End Doubles.

(** For when the result is determined: the platform's functions give doubles, and so do the numerals; there are no factorials (their
    description leaves great numbers, infinity and NaN open). *)
Definition proper_platform (L : libm) : Prop :=
  (forall m x, a_number (method1 L m x)) /\ (forall x y, a_number (powf L x y)) /\ (forall x y, a_number (log_base L x y)) /\ (forall x y, a_number (atan2 L x y)).
Fixpoint plain (e : expr f64) : Prop :=
  match e with
  | ENum x => a_number x
  | EVar _ | EConst _ => True
  | EGroup _ e | EPre _ e => plain e
  | ECall _ _ args => (fix all es := match es with [] => True | e :: es' => plain e /\ all es' end) args
  | EPost _ _ => False
  | EBin _ l r | EMul l r => plain l /\ plain r
  end.
