(** * Specification: what the decimal calculator computes, as a calculator of rationals

    A reference interpreter over the rational numbers with a limit on what can be written down: 96 bits and 28 digits after the point.
    Where the result of an operation cannot be written down but is in range, where functions are approximations, and where the answer
    depends on more than the values (the sign of a zero), it says nothing ([None]). *)
From Coq Require Import List NArith ZArith QArith Qabs Qround Qminmax Bool String.
From Verif Require Import ModelBase ModelContext ModelNum SpecExpr SpecOps SpecDecimal SpecCalculator SpecExact.
Import ListNotations.
Local Open Scope Q_scope.

(** Does some number of at most 96 bits, with up to 28 digits after the point, have this value? *)
Definition writable (q : Q) : bool :=
  existsb (fun s => let c := (Qnum q * 10 ^ Z.of_nat s)%Z in ((c mod Zpos (Qden q) =? 0) && (Z.abs (c / Zpos (Qden q)) <? limit))%Z) (seq 0 29).
(** [q] if it can be written down; an overflow if it is out of range. *)
Definition fit_in (q : Q) : option (res Q) :=
  if writable q then said q else if Qle_bool (inject_Z limit) (Qabs q) then fails Overflow else None.
Definition panics {A} (r : option (res A)) : option (res A) := match r with Some (Err _) => Some Panic | _ => r end.
(** The integer that [q] is. *)
Definition whole (q : Q) : option Z := if Pos.eqb (Qden (Qred q)) 1 then Some (Qnum (Qred q)) else None.

(** Powers with a whole exponent [n] are computed by squaring, with one squaring too many: all powers up to the next power of two above
    [n] must be writable. *)
Definition above (n : Z) : Z := 2 ^ (Z.log2 n + 1).
Definition squarings_fit (p : Q) (n : Z) : bool := forallb (fun j => writable (p ^ Z.of_nat j)) (seq 0 (S (Z.to_nat (above n)))).
Definition d_power (p q : Q) : option (res Q) :=
  match whole q with
  | Some n =>
      if (n =? 0)%Z then said 1 else if (n =? 1)%Z then said p
      else if (2 ^ 63 <=? Z.abs n)%Z then Some Panic
      else if (n <? 0)%Z then
        if Qeq_bool p 0 then Some Panic else if squarings_fit (1 / p) (- n) then said (p ^ n) else None
      else match whole p with
           | Some z => if (Z.abs z ^ above n <? limit)%Z then said (inject_Z (z ^ n)) else fails Overflow
           | None => if squarings_fit p n then said (p ^ n) else None
           end
  | None => if Qeq_bool p 0 then said 1 else if Qeq_bool p 1 then said 1 else if Qle_bool 0 p then None else fails Overflow
  end.
Definition d_operation (o : str) (p q : Q) : option (res Q) :=
  if named o "+" then fit_in (p + q)
  else if named o "-" then fit_in (p - q)
  else if named o "*" then fit_in (p * q)
  else if named o "/" then if Qeq_bool q 0 then fails Overflow else fit_in (p / q)
  else if named o "mod" then if Qeq_bool q 0 then fails Overflow else said (p - q * inject_Z (truncated (p / q)))
  else if named o "^" then d_power p q
  else None.
(** Factorials of whole numbers: those of 1 and 2 are 1 (sic), those of 3 to 27 exact, larger ones overflow, as do those of negative
    numbers. *)
Definition d_factorial (q : Q) : option (res Q) :=
  if Qle_bool 0 q then
    match whole q with
    | Some n => if (n =? 0)%Z then None else if (n <=? 2)%Z then said 1 else if (n <=? 27)%Z then said (inject_Z (fact (Z.to_nat n))) else fails Overflow
    | None => None
    end
  else fails Overflow.

(** Running totals, which panic when they are out of range. *)
Fixpoint total (op : Q -> Q -> Q) (p : Q) (qs : list Q) : option (res Q) :=
  match qs with [] => said p | q :: qs' => next (panics (fit_in (op p q))) (fun s => total op s qs') end.
Definition nearest (q : Q) : option (res Q) :=
  let k := Qfloor (q + (1 # 2)) in if Qeq_bool (q + (1 # 2)) (inject_Z k) then None else said (inject_Z k).
Definition alone (f : Q -> option (res Q)) (qs : list Q) : option (res Q) := match qs with [q] => f q | _ => fails InvalidArgumentCount end.
Definition d_call (f : str) (qs : list Q) : option (res Q) :=
  if named f "sum" then match qs with q :: qs' => total Qplus q qs' | [] => fails InvalidArgumentCount end
  else if named f "product" then match qs with q :: qs' => total Qmult q qs' | [] => fails InvalidArgumentCount end
  else if named f "avg" then
    match qs with
    | q :: qs' => let n := Z.of_nat (List.length qs) in
                  if (n <? limit)%Z then next (total Qplus q qs') (fun s => panics (fit_in (s / inject_Z n))) else None
    | [] => fails InvalidArgumentCount
    end
  else if named f "max" then match qs with p :: q :: qs' => said (fold_left Qmax (q :: qs') p) | _ => fails InvalidArgumentCount end
  else if named f "min" then match qs with p :: q :: qs' => said (fold_left Qmin (q :: qs') p) | _ => fails InvalidArgumentCount end
  else if named f "ceil" then alone (fun q => said (inject_Z (Qceiling q))) qs
  else if named f "floor" then alone (fun q => said (inject_Z (Qfloor q))) qs
  else if named f "truncate" then alone (fun q => said (inject_Z (truncated q))) qs
  else if named f "round" then alone nearest qs
  else None.

Section Decimals.
Context {D : Type}.
Variable value : D -> Q.
Variable vars : str -> option Q.
Fixpoint decimal (e : expr D) : option (res Q) :=
  match e with
  | ENum x => said (value x)
  | EVar x => match vars x with Some q => said q | None => fails InvalidInput end
  | EConst x => if named x "pi" then said (31415926535897932384626433833 # 10000000000000000000000000000)
                else if named x "e" then said (27182818284590452353602874714 # 10000000000000000000000000000) else None
  | EGroup _ e => decimal e
  | ECall f _ args => next (q_collect (map decimal args)) (d_call f)
  | EPre u e => if named u "+" || named u "-" then next (decimal e) (q_sign u) else None
  | EPost e u => if named u "!" then next (decimal e) d_factorial else None
  | EBin o l r => next (decimal l) (fun p => next (decimal r) (fun q => d_operation o p q))
  | EMul l r => next (decimal l) (fun p => next (decimal r) (fun q => fit_in (p * q)))
  end.
(** A result with the rational value, the same error, or a panic as well. *)
Definition agrees (r : res D) (s : res Q) : Prop :=
  match r, s with Ok v, Ok q => value v == q | Err k, Err k' => k = k' | Panic, Panic => True | _, _ => False end.
End Decimals.
