(** * Specification: a calculator for the integers of a machine type

    A reference interpreter for expression trees over the integers, written without any definition of the model: unbounded integers
    with a check that results fit, the operators' precedences as a table, and the words of a text. *)
From Coq Require Import List NArith ZArith Bool String.
From Verif Require Import ModelBase ModelContext ModelNum SpecExpr SpecLex SpecParse SpecOps.
Import ListNotations.
Local Open Scope Z_scope.

(** ** Names, in any case of ASCII letters *)
Definition small (c : char) : char := if ((65 <=? c) && (c <=? 90))%N then (c + 32)%N else c.
Definition named (x : str) (name : string) : bool := str_eqb (map small x) (lit name).
Definition one_of (names : list string) (x : str) : Prop := exists n, In n names /\ named x n = true.

Section Calculator.
Variable t : ity.
Variable dbg : bool.
(** The variables; what [^] computes; and what further functions compute. *)
Variable vars : str -> option Z.
Variable power : Z -> Z -> res Z.
Variable rest : str -> list Z -> res Z.

(** ** Values *)
Definition least : Z := if signed t then - 2 ^ (bits t - 1) else 0.
Definition size : Z := 2 ^ bits t.
Definition within (z : Z) : bool := (least <=? z) && (z <? least + size).
(** [z] if it fits. *)
Definition put (z : Z) : res Z := if within z then Ok z else Err Overflow.
(** The value of the type congruent to [z]. *)
Definition wrapped_value (z : Z) : Z := least + (z - least) mod size.

Definition then_ {A B} (r : res A) (f : A -> res B) : res B := match r with Ok x => f x | Err k => Err k | Panic => Panic end.

Definition operation (o : str) (x y : Z) : res Z :=
  if named o "+" then put (x + y)
  else if named o "-" then put (x - y)
  else if named o "*" then put (x * y)
  else if named o "/" then if y =? 0 then Err DivisionByZero else put (Z.quot x y)
  else if named o "mod" then if y =? 0 then Err DivisionByZero else then_ (put (Z.quot x y)) (fun _ => Ok (Z.rem x y))
  else power x y.

(** [n!]: exact if it fits; if not, a debug build panics and a release build gives the wrapped value. *)
Definition factorial_of (z : Z) : res Z :=
  if z <? 0 then Err NegativeValue
  else if within (fact (Z.to_nat z)) then Ok (fact (Z.to_nat z))
  else if dbg then Panic else Ok (wrapped_value (fact (Z.to_nat z))).

(** The running total of [z] and the numbers after it. *)
Fixpoint running (op : Z -> Z -> Z) (z : Z) (zs : list Z) : res Z :=
  match zs with [] => Ok z | x :: zs' => then_ (put (op z x)) (fun s => running op s zs') end.

Definition call (f : str) (zs : list Z) : res Z :=
  if named f "sum" then match zs with z :: zs' => running Z.add z zs' | [] => Err InvalidArgumentCount end
  else if named f "product" then match zs with z :: zs' => running Z.mul z zs' | [] => Err InvalidArgumentCount end
  else if named f "avg" then
    match zs with
    | z :: zs' => then_ (running Z.add z zs') (fun s => let k := Z.of_nat (List.length zs) in if within k then put (Z.quot s k) else Panic)
    | [] => Err InvalidArgumentCount
    end
  else if named f "max" then match zs with x :: y :: zs' => Ok (fold_left Z.max (y :: zs') x) | _ => Err InvalidArgumentCount end
  else if named f "min" then match zs with x :: y :: zs' => Ok (fold_left Z.min (y :: zs') x) | _ => Err InvalidArgumentCount end
  else if named f "abs" then match zs with [z] => put (Z.abs z) | _ => Err InvalidArgumentCount end
  else rest f zs.

(** All values of a list, or the first failure. *)
Fixpoint collect (rs : list (res Z)) : res (list Z) :=
  match rs with [] => Ok [] | r :: rs' => then_ r (fun z => then_ (collect rs') (fun zs => Ok (z :: zs))) end.

Fixpoint calc (e : expr Z) : res Z :=
  match e with
  | ENum z => Ok z
  | EVar x => match vars x with Some z => Ok z | None => Err InvalidInput end
  | EConst x => if named x "pi" then Ok 3 else if named x "e" then Ok 2 else Err InvalidInput
  | EGroup _ e => calc e
  | ECall f _ args => then_ (collect (map calc args)) (call f)
  | EPre u e => then_ (calc e) (fun z => if named u "-" then put (- z) else Ok z)
  | EPost e _ => then_ (calc e) factorial_of
  | EBin o l r => then_ (calc l) (fun x => then_ (calc r) (fun y => operation o x y))
  | EMul l r => then_ (calc l) (fun x => then_ (calc r) (fun y => put (x * y)))
  end.
End Calculator.

(** ** Expressions: the names in them, and how they group *)
Section Trees.
Variable others : str -> Prop.
Fixpoint calculator (e : expr Z) : Prop :=
  match e with
  | ENum _ | EVar _ => True
  | EConst x => one_of ["pi"; "e"] x
  | EGroup _ e => calculator e
  | ECall f _ args => (one_of ["sum"; "product"; "avg"; "max"; "min"; "abs"] f \/ others f) /\
      (fix all es := match es with [] => True | e :: es' => calculator e /\ all es' end) args
  | EPre u e => one_of ["+"; "-"] u /\ calculator e
  | EPost e u => one_of ["!"] u /\ calculator e /\ match e with EPost _ _ => False | _ => True end
  | EBin o l r => one_of ["+"; "-"; "*"; "/"; "mod"; "^"] o /\ calculator l /\ calculator r
  | EMul l r => calculator l /\ calculator r
  end%string.

(** [+ -] bind weakest, then [* / mod], then [^], which groups to the right; the others group to the left. *)
Definition strength (o : str) : N :=
  if named o "+" || named o "-" then 1%N else if named o "^" then 3%N else 2%N.
Definition binds_first (o1 o2 : str) : Prop :=
  (strength o2 < strength o1)%N \/ (strength o1 = strength o2 /\ strength o1 <> 3%N).

(** The tree is the one those rules give: [implied] if multiplication may be implied, [custom] if functions may be called with any
    brackets. *)
Variables implied custom : bool.
Fixpoint grouped (e : expr Z) : Prop :=
  match e with
  | ENum _ | EVar _ | EConst _ => True
  | EGroup _ e => grouped e
  | ECall _ g args => args <> [] /\ (custom = false -> g = Parenthesis) /\
      (fix all es := match es with [] => True | e :: es' => grouped e /\ all es' end) args
  | EPre u e => grouped e /\ (is_atom e = true \/ starts_with_atom e = false)
  | EPost e u => grouped e /\ is_primary e = true
  | EBin o l r => grouped l /\ grouped r /\ ends_in_prefix l = false
      /\ (forall o', In o' (right_ops l) -> binds_first o' o) /\ (forall o', In o' (left_ops r) -> ~ binds_first o o')
  | EMul l r => grouped l /\ grouped r /\ implied = true /\ juxtaposed l r = true
      /\ (forall o', In o' (left_ops r) -> ~ binds_first times o')
  end.
End Trees.

(** ** The words of a text: numbers by their digits, all else as it is *)
Definition calc_word (t : ity) (vars : str -> option Z) (tk : token Z) (w : str) : Prop :=
  match tk with
  | TNumber v => digits 10 w v /\ w <> [] /\ fits t v
  | TVariable x => w = x /\ ident_word x /\ vars x <> None
  | TConstant x | TFunction x => w = x /\ ident_word x /\ vars x = None
  | TBinary o | TUnary o => w = o /\ vars o = None
  | TOpen k | TClose k => w = [k] /\ vars w = None
  | TComma => w = lit "," /\ vars w = None
  | _ => False
  end.
