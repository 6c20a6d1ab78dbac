(** * Specification: a calculator for 128-bit numbers, their bits and comparisons

    A reference interpreter for expression trees, with the operators' names and precedences as tables, and the words of a text. *)
From Coq Require Import List NArith ZArith Bool String.
From Verif Require Import ModelBase ModelContext ModelNum SpecExpr SpecLex SpecParse SpecOps SpecCalculator.
Import ListNotations.
Local Open Scope string_scope.
Local Open Scope Z_scope.

(** [o] is one of these names, in any case of ASCII letters. *)
Definition is (names : list string) (o : str) : bool := existsb (named o) names.
Definition operator_names : list string :=
  ["|"; "or"; "^"; "xor"; "&"; "and"; "=="; "eq"; "equal"; "!="; "ne"; "no_equal"; ">"; "gt"; "<"; "lt"; ">="; "gte"; "<="; "lte"; ">>"; "shr"; "<<"; "shl"].

Section Calculator.
Variable dbg : bool.
Variable vars : str -> option Z.

Definition truth_value (b : bool) : res Z := Ok (if b then 1 else 0).
(** Shift amounts are below 128: a debug build panics at others, a release build takes them modulo 128. *)
Definition amount (y : Z) : res Z := if (0 <=? y) && (y <? 128) then Ok y else if dbg then Panic else Ok (y mod 128).

Definition bit_operation (o : str) (x y : Z) : res Z :=
  if is ["|"; "or"] o then Ok (Z.lor x y)
  else if is ["^"; "xor"] o then Ok (Z.lxor x y)
  else if is ["&"; "and"] o then Ok (Z.land x y)
  else if is ["=="; "eq"; "equal"] o then truth_value (x =? y)
  else if is ["!="; "ne"; "no_equal"] o then truth_value (negb (x =? y))
  else if is [">"; "gt"] o then truth_value (x >? y)
  else if is ["<"; "lt"] o then truth_value (x <? y)
  else if is [">="; "gte"] o then truth_value (x >=? y)
  else if is ["<="; "lte"] o then truth_value (x <=? y)
  else if is [">>"; "shr"] o then then_ (amount y) (fun k => Ok (x / 2 ^ k))
  else then_ (amount y) (fun k => Ok (wrapped_value i128 (x * 2 ^ k))).

Fixpoint bit_calc (e : expr Z) : res Z :=
  match e with
  | ENum z => Ok z
  | EVar x => match vars x with Some z => Ok z | None => Err InvalidInput end
  | EGroup _ e => bit_calc e
  | EPre _ e => then_ (bit_calc e) (fun z => Ok (- z - 1))
  | EBin o l r => then_ (bit_calc l) (fun x => then_ (bit_calc r) (fun y => bit_operation o x y))
  | _ => Err InvalidInput
  end.
End Calculator.

(** ** Expressions: the names in them, and how they group *)
Fixpoint complement_first (e : expr Z) : bool :=
  match e with EPre _ _ => true | EBin _ l _ => complement_first l | _ => false end.
(** [~] may not directly follow [~], though [not] and brackets may come between. *)
Fixpoint bit_calculator (e : expr Z) : Prop :=
  match e with
  | ENum _ | EVar _ => True
  | EGroup _ e => bit_calculator e
  | EPre u e => one_of ["~"; "not"] u /\ bit_calculator e /\ (named u "~" = true -> complement_first e = false)
  | EBin o l r => one_of operator_names o /\ bit_calculator l /\ bit_calculator r
  | _ => False
  end.

(** The numbers the operators are given in the code: larger ones bind first, equal ones from the left. *)
Definition bit_strength (o : str) : N :=
  if is ["|"; "or"] o then 13 else if is ["^"; "xor"] o then 12 else if is ["&"; "and"] o then 11
  else if is ["=="; "eq"; "equal"; "!="; "ne"; "no_equal"] o then 10 else if is [">>"; "shr"; "<<"; "shl"] o then 7 else 9.
Definition bit_first (o1 o2 : str) : Prop := (bit_strength o2 <= bit_strength o1)%N.
(** The tree is the one those rules give; a prefix takes all that follows, unless an operand follows it directly. *)
Fixpoint bit_grouped (e : expr Z) : Prop :=
  match e with
  | EGroup _ e => bit_grouped e
  | EPre u e => bit_grouped e /\ (is_atom e = true \/ starts_with_atom e = false)
  | EBin o l r => bit_grouped l /\ bit_grouped r /\ ends_in_prefix l = false
      /\ (forall o', In o' (right_ops l) -> bit_first o' o) /\ (forall o', In o' (left_ops r) -> ~ bit_first o o')
  | _ => True
  end.

(** ** The words of a text: decimal digits, [b] and binary digits, all else as it is *)
Definition bit_word (vars : str -> option Z) (tk : token Z) (w : str) : Prop :=
  match tk with
  | TNumber v => fits i128 v /\ ((digits 10 w v /\ w <> []) \/ exists t, w = 98%N :: t /\ digits 2 t v /\ t <> [])
  | TVariable x => w = x /\ ident_word x /\ (forall t v, x = 98%N :: t -> digits 2 t v -> t = []) /\ vars x <> None
  | TBinary o | TUnary o => w = o /\ vars o = None
  | TOpen k | TClose k => w = [k] /\ vars w = None
  | _ => False
  end.
