(** * Vocabulary for C102: operator characters written together *)
From Coq Require Import List NArith String.
From Verif Require Import ModelBase ModelContext ModelText SpecLex SpecLex2 SpecTokenizer.
Import ListNotations.
Local Open Scope N_scope.

(** The operator characters but the point and the underscore, which also occur in numbers and names. *)
Definition sign_char (c : char) : Prop := operator_char c /\ c <> point /\ c <> 95.
(** [x] and [y] stand next to each other in [s]. *)
Definition next_to (x y : char) (s : str) : Prop := exists p q, s = p ++ x :: y :: q.
(** No name of the context has [x] and [y] next to each other, and no number does. *)
Definition names_without {V W} (c : ctx V W) (parse : str -> option V) (x y : char) : Prop := forall s, next_to x y s -> nameless c parse s.

(** [c] is the context [d] with variables set whose names are identifiers. *)
Definition with_variables {V W} (c d : ctx V W) : Prop :=
  (forall q, get_binary c q = get_binary d q) /\ (forall q, get_unary c q = get_unary d q) /\ (forall q, get_function c q = get_function d q) /\
  (forall q, get_constant c q = get_constant d q) /\ (forall q, get_variable c q <> None -> ident_word q).
(** No number is written with two operator characters next to each other. *)
Definition plain_numbers {V} (parse : str -> option V) : Prop := forall x y s, sign_char x -> operator_char y -> next_to x y s -> parse s = None.
(** In [c] no two operator characters may be written together. *)
Definition apart {V W} (c : ctx V W) (parse : str -> option V) : Prop := forall x y, sign_char x -> operator_char y -> names_without c parse x y.
