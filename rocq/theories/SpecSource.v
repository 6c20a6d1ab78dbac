(** * Specification: arithmetic expressions as they are written, and their exact values

    A source expression is a tree whose numbers are the texts they are written with ([expr str]). *)
From Coq Require Import List NArith ZArith QArith Bool String.
From Verif Require Import ModelBase ModelContext SpecExpr SpecText SpecParse SpecDecimal.
Import ListNotations.

(** Decimal numerals without a sign: digits, or digits with a point and more digits. *)
Inductive decimal_numeral : str -> Q -> Prop :=
| DN_whole : forall s v, digits 10 s v -> s <> [] -> decimal_numeral s (inject_Z v)
| DN_fraction : forall s v t u, digits 10 s v -> s <> [] -> digits 10 t u -> t <> [] ->
    decimal_numeral (s ++ 46%N :: t) (inject_Z v + inject_Z u / inject_Z (10 ^ Z.of_nat (List.length t))).

(** The operators and brackets of these expressions, and how the tokens are written: all as they are. *)
Definition signs : list str := [lit "+"; lit "-"].
Definition operators : list str := [lit "+"; lit "-"; lit "*"; lit "/"; lit "mod"].
Definition bracket_words : list str := [lit "("; lit ")"; lit "["; lit "]"; lit "{"; lit "}"].
Definition source_word (t : token str) (s : str) : Prop :=
  match t with
  | TNumber x => s = x
  | TBinary o => s = o
  | TUnary u => s = u
  | TOpen k | TClose k => s = [k]
  | _ => False
  end.

(** [exact good e q]: the value of [e] is [q], and the values of all numbers, sums, differences, products and quotients in it
    are [good] (for instance: representable in the number type), divisors are not zero. *)
Inductive exact (good : Q -> Prop) : expr str -> Q -> Prop :=
| X_number : forall s q, decimal_numeral s q -> good q -> exact good (ENum s) q
| X_group : forall g e q, exact good e q -> exact good (EGroup g e) q
| X_plus : forall e q, exact good e q -> exact good (EPre (lit "+") e) q
| X_minus : forall e q, exact good e q -> exact good (EPre (lit "-") e) (- q)
| X_add : forall l r p q, exact good l p -> exact good r q -> good (p + q)%Q -> exact good (EBin (lit "+") l r) (p + q)
| X_sub : forall l r p q, exact good l p -> exact good r q -> good (p - q)%Q -> exact good (EBin (lit "-") l r) (p - q)
| X_mul : forall l r p q, exact good l p -> exact good r q -> good (p * q)%Q -> exact good (EBin (lit "*") l r) (p * q)
| X_implied : forall l r p q, exact good l p -> exact good r q -> good (p * q)%Q -> exact good (EMul l r) (p * q)
| X_div : forall l r p q, exact good l p -> exact good r q -> ~ (q == 0)%Q -> good (p / q)%Q -> exact good (EBin (lit "/") l r) (p / q)
| X_mod : forall l r p q, exact good l p -> exact good r q -> ~ (q == 0)%Q -> exact good (EBin (lit "mod") l r) (p - q * inject_Z (truncated (p / q))).

(** The tree with its numbers read. *)
Fixpoint with_numbers {V} (read : str -> V) (e : expr str) : expr V :=
  match e with
  | ENum s => ENum (read s)
  | EVar x => EVar x
  | EConst x => EConst x
  | EGroup g e => EGroup g (with_numbers read e)
  | ECall f g args => ECall f g (map (with_numbers read) args)
  | EPre u e => EPre u (with_numbers read e)
  | EPost e u => EPost (with_numbers read e) u
  | EBin o l r => EBin o (with_numbers read l) (with_numbers read r)
  | EMul l r => EMul (with_numbers read l) (with_numbers read r)
  end.

(** [parse], the [FromStr] of a number type, reads every numeral whose value is [good] as a number that means that value, and it
    does not take operators or brackets for numbers. *)
Definition reads_numerals {V} (parse : str -> option V) (read : str -> V) (good : Q -> Prop) (means : V -> Q -> Prop) : Prop :=
  (forall s q, decimal_numeral s q -> good q -> parse s = Some (read s) /\ means (read s) q) /\
  (forall s, In s (operators ++ bracket_words) -> parse s = None).
