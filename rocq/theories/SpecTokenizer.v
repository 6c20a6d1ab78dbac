(** * Specification: how words become tokens *)
From Coq Require Import List NArith Bool Arith String.
From Verif Require Import ModelBase ModelContext ModelText SpecExpr SpecLex.
Import ListNotations.

Section Words.
Context {V W : Type}.
Variable c : ctx V W.
(** Parsing numbers: [N::from_str]. *)
Variable parse : str -> option V.

(** ** One word *)

Definition variable (s : str) : Prop := get_variable c s <> None.
Definition constant (s : str) : Prop := get_constant c s <> None.
Definition function (s : str) : Prop := get_function c s <> None.
Definition unary (s : str) : Prop := get_unary c s <> None.
Definition binary (s : str) : Prop := get_binary c s <> None.
(** A word that is nothing else. *)
Definition operator_only (s : str) : Prop := parse s = None /\ ~ variable s /\ ~ constant s /\ ~ function s.
Definition nameless (s : str) : Prop := operator_only s /\ ~ unary s /\ ~ binary s.

(** The word ends an operand: a number, a variable, a constant, a closing symbol. *)
Definition ends_operand (s : str) : Prop :=
  parse s <> None \/ variable s \/ constant s \/ exists g, s = [grouping_close g].
(** The first character of a word, as a name, is a unary operator and not a binary one. *)
Definition starts_unary_only (s : str) : Prop := exists ch t, s = ch :: t /\ unary [ch] /\ ~ binary [ch].
Definition lone_non_punctuation (s : str) : Prop := exists ch, s = [ch] /\ is_ascii_punctuation ch = false.

(** An operator is unary here: [prev] is the word before it, [last] whether it is the last word.
    A postfix operator must follow an operand. A prefix operator must not be last, nor follow an operand, nor a word that
    starts like a unary-only operator (the [!] in [3 ! - 2]), nor a single character that is not punctuation. *)
Definition unary_here (prev : option str) (s : str) (last : Prop) : Prop :=
  (has_notation c s Postfix /\ exists p, prev = Some p /\ ends_operand p) \/
  (has_notation c s Prefix /\ ~ last /\
     forall p, prev = Some p -> ~ ends_operand p /\ ~ starts_unary_only p /\ ~ lone_non_punctuation p).

(** The token a word stands for. The first rule that applies decides: number, variable, constant, function, operator,
    comma, grouping symbol. *)
Inductive stands_for (prev : option str) (s : str) (last : Prop) : token V -> Prop :=
| S_number : forall v, parse s = Some v -> stands_for prev s last (TNumber v)
| S_variable : parse s = None -> variable s -> stands_for prev s last (TVariable s)
| S_constant : parse s = None -> ~ variable s -> constant s -> stands_for prev s last (TConstant s)
| S_function : parse s = None -> ~ variable s -> ~ constant s -> function s -> stands_for prev s last (TFunction s)
| S_unary : operator_only s -> unary_here prev s last -> stands_for prev s last (TUnary s)
| S_binary : operator_only s -> unary s \/ binary s -> ~ unary_here prev s last -> prev <> None -> ~ last ->
    stands_for prev s last (TBinary s)
| S_comma : nameless s -> s = lit "," -> stands_for prev s last TComma
| S_open : forall g, nameless s -> s = [grouping_open g] -> stands_for prev s last (TOpen (grouping_open g))
| S_close : forall g, nameless s -> s = [grouping_close g] -> stands_for prev s last (TClose (grouping_close g))
| S_unknown : nameless s -> s <> lit "," -> s <> lit " " -> (forall g, s <> [grouping_open g] /\ s <> [grouping_close g]) ->
    stands_for prev s last (TUnknown s).

(** The case the tokenizer cannot handle: the word before a prefix operator ends no operand and begins with a character of
    several bytes (or is empty). *)
Definition begins_ascii (s : str) : Prop := exists ch t, s = ch :: t /\ (ch < 128)%N.
Definition cuts (prev : option str) (s : str) (last : Prop) : Prop :=
  operator_only s /\ has_notation c s Prefix /\ ~ last /\ exists p, prev = Some p /\ ~ ends_operand p /\ ~ begins_ascii p.

(** ** All the words: one token each, except that a number and an [i] after it are one number in a complex context, and
    a word that is a space (some splitters keep them) is dropped. *)
Inductive stand_for (prev : option str) : list str -> list (token V) -> Prop :=
| SS_end : stand_for prev [] []
| SS_space : forall ws ts, nameless (lit " ") -> stand_for (Some (lit " ")) ws ts -> stand_for prev (lit " " :: ws) ts
| SS_word : forall s ws t ts, stands_for prev s (ws = []) t -> ~ cuts prev s (ws = []) ->
    ~ (complex_number (cfg c) = true /\ parse s <> None /\ exists ws', ws = lit "i" :: ws') ->
    stand_for (Some s) ws ts -> stand_for prev (s :: ws) (t :: ts)
| SS_complex : forall s ws v ts, complex_number (cfg c) = true -> parse s <> None -> parse (s ++ lit "i") = Some v ->
    stand_for (Some (lit "i")) ws ts -> stand_for prev (s :: lit "i" :: ws) (TNumber v :: ts).

(** ** Expressions *)

(** After an operator with this name a sign is read as a sign: [2 * -3]. *)
Definition sign_may_follow (o : str) : Prop := ~ starts_unary_only o /\ ~ lone_non_punctuation o.

(** The word [s] spells the token [t] unambiguously. *)
Definition spells (t : token V) (s : str) : Prop :=
  match t with
  | TNumber v => parse s = Some v
  | TVariable x => s = x /\ parse x = None /\ variable x
  | TConstant x => s = x /\ parse x = None /\ ~ variable x /\ constant x
  | TFunction x => s = x /\ parse x = None /\ ~ variable x /\ ~ constant x /\ function x
  | TBinary o => s = o /\ operator_only o /\ (ident_word o \/ operator_word o) /\ ~ has_notation c o Postfix
  | TUnary u => s = u /\ operator_only u /\ (ident_word u \/ operator_word u) /\
      (has_notation c u Postfix -> starts_unary_only u)
  | TOpen k | TClose k => s = [k] /\ nameless s
  | TComma => s = lit "," /\ nameless s
  | _ => False
  end.

(** No operators clash: no postfix operator is applied directly to another, as in [3 ! !] (the second [!] is taken for a
    binary operator), and where a sign follows an operator, it may. *)
Definition begins_with_sign (e : expr V) : Prop := exists u ts, print e = TUnary u :: ts.
Fixpoint readable (e : expr V) : Prop :=
  match e with
  | ENum _ | EVar _ | EConst _ => True
  | EGroup _ e => readable e
  | EPre u e => readable e /\ (begins_with_sign e -> sign_may_follow u)
  | ECall _ _ args => (fix all es := match es with [] => True | e :: es' => readable e /\ all es' end) args
  | EPost e _ => readable e /\ match e with EPost _ _ => False | _ => True end
  | EBin o l r => readable l /\ readable r /\ (begins_with_sign r -> sign_may_follow o)
  | EMul l r => readable l /\ readable r
  end.

(** [s] is a text of the expression [e]: its words spell the tokens of [e]. *)
Definition text_of (e : expr V) (s : str) : Prop :=
  exists ws, lexes s ws /\ Forall2 spells (print e) ws /\ readable e /\
    (complex_number (cfg c) = true -> ~ In (lit "i") ws).
End Words.
