(** * Tokens, functions, configuration and the [Context] trait *)
From Coq Require Import List NArith Bool.
From Verif Require Import ModelBase.
Import ListNotations.

(** /repo/prexel/src/token.rs 6-29 *)
Inductive token (V : Type) :=
| TNumber (v : V)
| TVariable (x : str)
| TConstant (x : str)
| TFunction (f : str)
| TBinary (o : str)
| TUnary (u : str)
| TArgCount (n : nat)
| TOpen (c : char)
| TClose (c : char)
| TUnknown (s : str)
| TComma.
Arguments TNumber {V} v. Arguments TVariable {V} x. Arguments TConstant {V} x.
Arguments TFunction {V} f. Arguments TBinary {V} o. Arguments TUnary {V} u.
Arguments TArgCount {V} n. Arguments TOpen {V} c. Arguments TClose {V} c.
Arguments TUnknown {V} s. Arguments TComma {V}.

(** token.rs 72-74, 90-92, 117-119, 123-125 *)
Definition is_number {V} (t : token V) := match t with TNumber _ => true | _ => false end.
Definition is_function {V} (t : token V) := match t with TFunction _ => true | _ => false end.
Definition is_grouping_open {V} (t : token V) := match t with TOpen _ => true | _ => false end.
Definition is_grouping_close {V} (t : token V) := match t with TClose _ => true | _ => false end.
(** token.rs 149-154 *)
Definition contains_symbol {V} (t : token V) (name : char) :=
  match t with TOpen c | TClose c => char_eqb c name | _ => false end.

(** /repo/prexel/src/function.rs 75-94 *)
Inductive associativity := LeftA | RightA.
Inductive notation := Prefix | Postfix.

(** function.rs 4-70: the traits [Function], [BinaryFunction], [UnaryFunction]. [precedence] is a [u32]; only
    comparisons are made with it, so it is an [N]. [description] (docs only) is left out. *)
Record func (V W : Type) := Func {
  fn_name : str; fn_aliases : list str; fn_call : list V -> M W V }.
Record bfunc (V W : Type) := BFunc {
  bf_name : str; bf_aliases : list str; bf_prec : N; bf_assoc : associativity; bf_call : V -> V -> M W V }.
Record ufunc (V W : Type) := UFunc {
  uf_name : str; uf_aliases : list str; uf_notation : notation; uf_call : V -> M W V }.
Arguments Func {V W}. Arguments fn_name {V W}. Arguments fn_aliases {V W}. Arguments fn_call {V W}.
Arguments BFunc {V W}. Arguments bf_name {V W}. Arguments bf_aliases {V W}. Arguments bf_prec {V W}.
Arguments bf_assoc {V W}. Arguments bf_call {V W}.
Arguments UFunc {V W}. Arguments uf_name {V W}. Arguments uf_aliases {V W}.
Arguments uf_notation {V W}. Arguments uf_call {V W}.

(** /repo/prexel/src/context.rs 648-657 *)
Inductive grouping := Parenthesis | Bracket | Brace.

(** context.rs 661-668: [Grouping::new]. Code points: ( 40, ) 41, [ 91, ] 93, { 123, } 125. *)
Definition grouping_new (c : char) : option grouping :=
  if (char_eqb c 40%N || char_eqb c 41%N)%bool then Some Parenthesis
  else if (char_eqb c 91%N || char_eqb c 93%N)%bool then Some Bracket
  else if (char_eqb c 123%N || char_eqb c 125%N)%bool then Some Brace
  else None.
(** context.rs 675-681 *)
Definition grouping_open (g : grouping) : char :=
  match g with Parenthesis => 40 | Bracket => 91 | Brace => 123 end%N.
(** context.rs 683-689 *)
Definition grouping_close (g : grouping) : char :=
  match g with Parenthesis => 41 | Bracket => 93 | Brace => 125 end%N.
(** context.rs 671-673 *)
Definition grouping_symbols (g : grouping) : char * char := (grouping_open g, grouping_close g).
(** context.rs 693-701 *)
Definition grouping_is_open (g : grouping) (c : char) : bool := char_eqb (grouping_open g) c.
Definition grouping_is_close (g : grouping) (c : char) : bool := char_eqb (grouping_close g) c.
(** context.rs 704-710 *)
Definition grouping_close_for (g : grouping) (c : char) : option char :=
  if grouping_is_open g c then option_map grouping_close (grouping_new c) else None.
(** context.rs 713-719 *)
Definition grouping_open_for (g : grouping) (c : char) : option char :=
  if grouping_is_close g c then option_map grouping_open (grouping_new c) else None.

(** context.rs 510-519: [Config]. [cfg_grouping] is the private set [grouping]; it is a list here. *)
Record config := Config {
  implicit_mul : bool; complex_number : bool; custom_function_call : bool; cfg_grouping : list grouping }.

(** context.rs 509 ([derive(Default)]), 525-527 *)
Definition config_default : config := Config false false false [].
Definition config_with_grouping (cf : config) (g : grouping) : config :=
  (* context.rs 570-573 *)
  Config (implicit_mul cf) (complex_number cf) (custom_function_call cf) (cfg_grouping cf ++ [g]).
Definition config_new : config := config_with_grouping config_default Parenthesis.
(** context.rs 531-534, 543-546, 554-557 *)
Definition config_with_implicit_mul (cf : config) (b : bool) : config :=
  Config b (complex_number cf) (custom_function_call cf) (cfg_grouping cf).
Definition config_with_complex_number (cf : config) (b : bool) : config :=
  Config (implicit_mul cf) b (custom_function_call cf) (cfg_grouping cf).
Definition config_with_custom_function_call (cf : config) (b : bool) : config :=
  Config (implicit_mul cf) (complex_number cf) b (cfg_grouping cf).

(** context.rs 585-587. Like the code, it does not look at [cfg_grouping]. *)
Definition get_group_symbol (cf : config) (c : char) : option (char * char) :=
  option_map grouping_symbols (grouping_new c).
(** context.rs 604-608 *)
Definition get_group_open_for (cf : config) (c : char) : option char :=
  match grouping_new c with Some g => grouping_open_for g c | None => None end.
(** context.rs 625-629 *)
Definition get_group_close_for (cf : config) (c : char) : option char :=
  match grouping_new c with Some g => grouping_close_for g c | None => None end.
(** context.rs 633-637 *)
Definition is_group_close (cf : config) (c : char) : bool :=
  match grouping_new c with Some g => grouping_is_close g c | None => false end.
(** context.rs 641-645 *)
Definition is_group_open (cf : config) (c : char) : bool :=
  match grouping_new c with Some g => grouping_is_open g c | None => false end.

(** context.rs 15-78: what the evaluator and the tokenizer use of the trait [Context]: its configuration and its
    lookups ([is_variable] etc. are derived from them, lines 51-77). *)
Record ctx (V W : Type) := Ctx {
  cfg : config;
  get_variable : str -> option V;
  get_constant : str -> option V;
  get_function : str -> option (func V W);
  get_unary : str -> option (ufunc V W);
  get_binary : str -> option (bfunc V W) }.
Arguments Ctx {V W}. Arguments cfg {V W}. Arguments get_variable {V W}. Arguments get_constant {V W}.
Arguments get_function {V W}. Arguments get_unary {V W}. Arguments get_binary {V W}.

Definition is_some {A} (o : option A) : bool := match o with Some _ => true | None => false end.
(** context.rs 51-77 *)
Definition is_variable {V W} (c : ctx V W) n := is_some (get_variable c n).
Definition is_constant {V W} (c : ctx V W) n := is_some (get_constant c n).
Definition is_function_name {V W} (c : ctx V W) n := is_some (get_function c n).
Definition is_unary_function {V W} (c : ctx V W) n := is_some (get_unary c n).
Definition is_binary_function {V W} (c : ctx V W) n := is_some (get_binary c n).
