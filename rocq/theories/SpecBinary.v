(** * Specification: bitwise and comparison operators on 128-bit integers *)
From Coq Require Import List NArith ZArith Bool String.
From Verif Require Import ModelNum SpecOps.
Import ListNotations.
Local Open Scope Z_scope.
Local Open Scope string_scope.

(** [r] has the bit [f a b] wherever [x] and [y] have the bits [a] and [b] (two's complement, infinitely many bits). *)
Definition bitwise (f : bool -> bool -> bool) (x y r : Z) : Prop := forall i, 0 <= i -> Z.testbit r i = f (Z.testbit x i) (Z.testbit y i).
(** [r] is 1 if the statement is true and 0 if not. *)
Definition says (P : Prop) (r : Z) : Prop := (P /\ r = 1) \/ (~ P /\ r = 0).

(** The names of every operator (any of them, in any case of letters), its precedence, and its meaning: [means x y r] if
    [r] is the result for [x] on the left and [y] on the right. *)
Record binary_operator := { names : list string; precedence : N; is_shift : bool; means : Z -> Z -> Z -> Prop }.
Definition binary_operators : list binary_operator :=
  [ {| names := ["|"; "or"]; precedence := 13; is_shift := false; means := bitwise orb |};
    {| names := ["^"; "xor"]; precedence := 12; is_shift := false; means := bitwise xorb |};
    {| names := ["&"; "and"]; precedence := 11; is_shift := false; means := bitwise andb |};
    {| names := ["=="; "eq"; "equal"]; precedence := 10; is_shift := false; means := fun x y => says (x = y) |};
    {| names := ["!="; "ne"; "no_equal"]; precedence := 10; is_shift := false; means := fun x y => says (x <> y) |};
    {| names := [">"; "gt"]; precedence := 9; is_shift := false; means := fun x y => says (x > y) |};
    {| names := ["<"; "lt"]; precedence := 9; is_shift := false; means := fun x y => says (x < y) |};
    {| names := [">="; "gte"]; precedence := 9; is_shift := false; means := fun x y => says (x >= y) |};
    {| names := ["<="; "lte"]; precedence := 9; is_shift := false; means := fun x y => says (x <= y) |};
    (* shifting right divides by 2^y, rounding down *)
    {| names := [">>"; "shr"]; precedence := 7; is_shift := true; means := fun x y r => r * 2 ^ y <= x < (r + 1) * 2 ^ y |};
    (* shifting left multiplies by 2^y, reduced to 128 bits *)
    {| names := ["<<"; "shl"]; precedence := 7; is_shift := true; means := fun x y r => fits i128 r /\ exists k, r = x * 2 ^ y + k * 2 ^ 128 |} ].

(** ** Expressions *)
From Verif Require Import ModelBase SpecExpr SpecText.

Definition named (q : str) (o : binary_operator) : Prop := exists name, In name (names o) /\ ascii_alike q (lit name).
(** [has_value e v]: the expression [e], of 128-bit numbers, groups, complements and these operators, has the value [v]. It
    has none if a shift amount is out of range. *)
Inductive has_value : expr Z -> Z -> Prop :=
| V_number : forall v, fits i128 v -> has_value (ENum v) v
| V_group : forall g e v, has_value e v -> has_value (EGroup g e) v
| V_not : forall u e x r, (ascii_alike u (lit "~") \/ ascii_alike u (lit "not")) -> has_value e x ->
    (forall i, 0 <= i -> Z.testbit r i = negb (Z.testbit x i)) -> has_value (EPre u e) r
| V_operator : forall q o l r x y v, In o binary_operators -> named q o -> has_value l x -> has_value r y ->
    (is_shift o = true -> 0 <= y < 128) -> means o x y v -> has_value (EBin q l r) v.

(** Built of these, with no shifts, and all its numbers in range. *)
Fixpoint bit_expression (e : expr Z) : Prop :=
  match e with
  | ENum v => fits i128 v
  | EGroup _ e => bit_expression e
  | EPre u e => (ascii_alike u (lit "~") \/ ascii_alike u (lit "not")) /\ bit_expression e
  | EBin q l r => (exists o, In o binary_operators /\ named q o /\ is_shift o = false) /\ bit_expression l /\ bit_expression r
  | _ => False
  end.
