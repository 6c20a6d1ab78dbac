(** * Specification: texts with imaginary numbers

    In a context for complex numbers a number and the word [i] right after it are one number, [3i] or [3 i]. *)
From Coq Require Import List NArith ZArith QArith Bool String.
From Verif Require Import ModelBase ModelContext SpecExpr SpecLex SpecTokenizer SpecDecimal SpecDouble SpecComplex SpecSource.
Import ListNotations.

Section Words.
Context {V W : Type}.
Variable c : ctx V W.
Variable parse : str -> option V.

(** The words [ws] spell the tokens [ts]: one word for each token, except that a number may be two words, a number and [i], that
    the number type reads together. A number that is one word is not followed by the word [i]. *)
Inductive spelled : list (token V) -> list str -> Prop :=
| spelled_none : spelled [] []
| spelled_word : forall t s ts ws, spells c parse t s -> (parse s <> None -> forall ws', ws <> lit "i" :: ws') -> spelled ts ws ->
    spelled (t :: ts) (s :: ws)
| spelled_imaginary : forall v s ts ws, parse s <> None -> parse (s ++ lit "i") = Some v -> spelled ts ws ->
    spelled (TNumber v :: ts) (s :: lit "i" :: ws).

(** [s] is a text of the expression [e] in a context for complex numbers. *)
Definition complex_text_of (e : expr V) (s : str) : Prop := exists ws, lexes s ws /\ spelled (print e) ws /\ readable c e.
End Words.

(** ** Source expressions: the numbers are [2], [0.5] (real), [2i], [0.5i] and [i] (imaginary) *)
Definition imaginary (s : str) : str := s ++ lit "i".

(** How they are written: [2i] as the two words [2] and [i]. *)
Definition not_i_next (ws : list str) : Prop := forall ws', ws <> lit "i" :: ws'.
Inductive complex_words : list (token str) -> list str -> Prop :=
| cw_none : complex_words [] []
| cw_real : forall s q ts ws, decimal_numeral s q -> not_i_next ws -> complex_words ts ws -> complex_words (TNumber s :: ts) (s :: ws)
| cw_imaginary : forall s q ts ws, decimal_numeral s q -> complex_words ts ws -> complex_words (TNumber (imaginary s) :: ts) (s :: lit "i" :: ws)
| cw_unit : forall ts ws, not_i_next ws -> complex_words ts ws -> complex_words (TNumber (lit "i") :: ts) (lit "i" :: ws)
| cw_symbol : forall t s ts ws, (forall x, t <> TNumber x) -> source_word t s -> complex_words ts ws -> complex_words (t :: ts) (s :: ws).

(** [complex_exact e a b]: the value of [e] is [a + b i] by the rules of complex arithmetic, and no step needs rounding. *)
Inductive complex_exact : expr str -> Q -> Q -> Prop :=
| CX_real : forall s q, decimal_numeral s q -> a_double q -> complex_exact (ENum s) q 0
| CX_imaginary : forall s q, decimal_numeral s q -> a_double q -> complex_exact (ENum (imaginary s)) 0 q
| CX_unit : complex_exact (ENum (lit "i")) 0 1
| CX_group : forall g e a b, complex_exact e a b -> complex_exact (EGroup g e) a b
| CX_plus : forall e a b, complex_exact e a b -> complex_exact (EPre (lit "+") e) a b
| CX_minus : forall e a b, complex_exact e a b -> complex_exact (EPre (lit "-") e) (- a) (- b)
| CX_add : forall l r a b c d, complex_exact l a b -> complex_exact r c d -> a_double (a + c) -> a_double (b + d) ->
    complex_exact (EBin (lit "+") l r) (a + c) (b + d)
| CX_sub : forall l r a b c d, complex_exact l a b -> complex_exact r c d -> a_double (a - c) -> a_double (b - d) ->
    complex_exact (EBin (lit "-") l r) (a - c) (b - d)
| CX_mul : forall l r a b c d, complex_exact l a b -> complex_exact r c d -> multipliable a b c d ->
    complex_exact (EBin (lit "*") l r) (a * c - b * d) (a * d + b * c)
| CX_implied : forall l r a b c d, complex_exact l a b -> complex_exact r c d -> multipliable a b c d ->
    complex_exact (EMul l r) (a * c - b * d) (a * d + b * c)
| CX_div : forall l r a b c d, complex_exact l a b -> complex_exact r c d -> ~ (c == 0 /\ d == 0)%Q -> divisible a b c d ->
    complex_exact (EBin (lit "/") l r) ((a * c + b * d) / (c * c + d * d)) ((b * c - a * d) / (c * c + d * d)).

(** [parse], the [FromStr] of complex numbers, reads real and imaginary numerals and [i] (num-complex does: [i] alone is [0 + 1i]), and
    it does not take operators or brackets for numbers. *)
Definition reads_complex (parse : str -> option (ModelFloat.f64 * ModelFloat.f64)) (read : str -> ModelFloat.f64 * ModelFloat.f64) : Prop :=
  (forall s q, decimal_numeral s q -> a_double q -> parse s = Some (read s) /\ is_complex (read s) q 0) /\
  (forall s q, decimal_numeral s q -> a_double q -> parse (imaginary s) = Some (read (imaginary s)) /\ is_complex (read (imaginary s)) 0 q) /\
  (parse (lit "i") = Some (read (lit "i")) /\ is_complex (read (lit "i")) 0 1) /\
  (forall s, In s (operators ++ bracket_words) -> parse s = None).
