(** * Specification: what the messages of errors say

    [{:?}] writes strings in double quotes and characters in single ones, with a backslash before a backslash and before the quote in use. *)
From Coq Require Import List NArith ZArith Bool String.
From Verif Require Import ModelBase ModelContext ModelEvaluator ModelMessage SpecExpr SpecTokens SpecBlame.
From Verif Require ModelServer.
Import ListNotations.
Local Open Scope string_scope.
Local Open Scope list_scope.

Section Spec.
Context {V W : Type}.
Variable c : ctx V W.
(** How numbers and unusual characters are written, and what operators and functions say when they fail. *)
Variable S_ : voice V W.
Notation tok := (token V).

Definition ticks (s : str) : str := lit "`" ++ s ++ lit "`".
Definition printable (ch : char) : Prop := (32 <= ch <= 126)%N.
(** [inside q s t]: [t] is [s] as it is written between quotes [q]. *)
Inductive inside (q : N) : str -> str -> Prop :=
| in_none : inside q [] []
| in_marked : forall ch s t, ch = 92%N \/ ch = q -> inside q s t -> inside q (ch :: s) (92%N :: ch :: t)
| in_plain : forall ch s t, ch <> 92%N -> ch <> q -> printable ch -> inside q s t -> inside q (ch :: s) (ch :: t)
| in_odd : forall ch s t, ch <> 92%N -> ch <> q -> ~ printable ch -> inside q s t -> inside q (ch :: s) (v_odd S_ ch ++ t).
Definition in_quotes (s t : str) : Prop := exists u, inside 34 s u /\ t = 34%N :: u ++ [34%N].
Definition in_single_quotes (ch : char) (t : str) : Prop := exists u, inside 39 [ch] u /\ t = 39%N :: u ++ [39%N].
Definition optional (o : option str) (t : str) : Prop :=
  match o with Some s => exists u, in_quotes s u /\ t = lit "Some(" ++ u ++ lit ")" | None => t = lit "None" end.
(** A token in a message. *)
Inductive token_text : tok -> str -> Prop :=
| tt_number : forall n, token_text (TNumber n) (lit "Number(" ++ v_number S_ n ++ lit ")")
| tt_variable : forall x u, in_quotes x u -> token_text (TVariable x) (lit "Variable(" ++ u ++ lit ")")
| tt_constant : forall x u, in_quotes x u -> token_text (TConstant x) (lit "Constant(" ++ u ++ lit ")")
| tt_function : forall x u, in_quotes x u -> token_text (TFunction x) (lit "Function(" ++ u ++ lit ")")
| tt_binary : forall x u, in_quotes x u -> token_text (TBinary x) (lit "BinaryOperator('" ++ u ++ lit "')")
| tt_unary : forall x u, in_quotes x u -> token_text (TUnary x) (lit "UnaryOperator('" ++ u ++ lit "')")
| tt_count : forall n, token_text (TArgCount n) (lit "ArgCount(" ++ ModelServer.show_int (Z.of_nat n) ++ lit ")")
| tt_open : forall ch u, in_single_quotes ch u -> token_text (TOpen ch) (lit "ParenthesisOpen('" ++ u ++ lit "')")
| tt_close : forall ch u, in_single_quotes ch u -> token_text (TClose ch) (lit "ParenthesisClose('" ++ u ++ lit "')")
| tt_unknown : forall x u, in_quotes x u -> token_text (TUnknown x) (lit "Unknown(" ++ u ++ lit ")")
| tt_comma : token_text TComma (lit "Comma").
(** A list of tokens: commas between them. *)
Inductive tokens_text : list tok -> str -> Prop :=
| ts_none : tokens_text [] []
| ts_one : forall t s, token_text t s -> tokens_text [t] s
| ts_more : forall t s t' ts u, token_text t s -> tokens_text (t' :: ts) u -> tokens_text (t :: t' :: ts) (s ++ lit ", " ++ u).

(** A name among the tokens that the context does not have. *)
Inductive missing (ts : list tok) : str -> Prop :=
| no_variable : forall x, In (TVariable x) ts -> get_variable c x = None -> missing ts (lit "Variable " ++ ticks x ++ lit " not found")
| no_constant : forall x, In (TConstant x) ts -> get_constant c x = None -> missing ts (lit "Constant " ++ ticks x ++ lit " not found")
| no_function : forall f, In (TFunction f) ts -> get_function c f = None -> missing ts (lit "Function " ++ ticks f ++ lit " not found")
| no_unary : forall u, In (TUnary u) ts -> get_unary c u = None -> missing ts (lit "Unary operator " ++ ticks u ++ lit " not found")
| no_binary : forall o, In (TBinary o) ts -> get_binary c o = None -> missing ts (lit "Binary function " ++ ticks o ++ lit " not found").

(** The symbols still open after some tokens, the innermost first, each with whether it directly follows the name of a function. *)
Inductive still_open : list tok -> list (char * bool) -> Prop :=
| all_closed : forall b, balanced b -> still_open b []
| opened : forall l os o b called, still_open l os -> balanced b -> (called = true <-> exists l' f, l = l' ++ [TFunction f]) -> still_open (l ++ TOpen o :: b) ((o, called) :: os).
Definition closes (cl o : char) : Prop := exists g, grouping_new o = Some g /\ cl = grouping_close g.

(** A fault in the order of the tokens. *)
Inductive disorder (ts : list tok) : errkind -> str -> Prop :=
| no_parenthesis : forall l f r, ts = l ++ TFunction f :: r -> custom_function_call (cfg c) = false -> (forall r', r <> TOpen 40%N :: r') ->
    disorder ts InvalidInput (lit "Function arguments of " ++ ticks f ++ lit " are not within a parentheses")
| nothing_inside : forall l t o cl r, ts = l ++ t :: TOpen o :: TClose cl :: r -> (forall f, t <> TFunction f) -> get_group_open_for (cfg c) cl = Some o ->
    disorder ts InvalidInput (lit "Empty grouping symbols: " ++ [o; cl])
| comma_first : forall r, ts = TComma :: r -> disorder ts InvalidInput (lit "Misplaced comma")
| comma_after_open : forall l o r, ts = l ++ TOpen o :: TComma :: r -> disorder ts InvalidInput (lit "Misplaced comma: `(,`")
| comma_before_close : forall l cl r, ts = l ++ TComma :: TClose cl :: r -> disorder ts InvalidInput (lit "Misplaced comma: `,)`")
| comma_in_brackets : forall l o m r, ts = l ++ TOpen o :: m ++ TComma :: r -> (forall l' f, l <> l' ++ [TFunction f]) ->
    disorder ts InvalidInput (lit "Misplaced comma")
| comma_outside : forall l r os, ts = l ++ TComma :: r -> still_open l os -> (forall o, ~ In (o, true) os) -> disorder ts InvalidExpression (lit "Comma found but not function")
| comma_loose : forall l r, ts = l ++ TComma :: r -> balanced l -> disorder ts InvalidExpression (lit "Misplace comma")
| nothing_before : forall l u r, ts = l ++ TUnary u :: r -> operands l = [] -> disorder ts InvalidExpression (lit "Misplace unary operator")
| not_open : forall l cl r os, ts = l ++ TClose cl :: r -> still_open l os -> (forall o called os', os = (o, called) :: os' -> ~ closes cl o) -> disorder ts InvalidExpression (lit "Misplace grouping symbol")
| not_closed : forall o called os u, still_open ts ((o, called) :: os) -> token_text (TOpen o) u -> disorder ts InvalidInput (lit "Unknown token: " ++ ticks u)
| no_meaning : forall t u, In t ts -> (exists x, t = TUnknown x) \/ (exists n, t = TArgCount n) -> token_text t u ->
    disorder ts InvalidInput (lit "Invalid token: " ++ u)
| not_called : forall f, In (TFunction f) ts -> custom_function_call (cfg c) = true -> disorder ts InvalidInput (lit "Cannot evaluate function " ++ ticks f ++ lit ", unknown number of arguments")
| no_times : implicit_mul (cfg c) = true -> juxtapositions ts <> 0%nat -> get_binary c star = None -> disorder ts InvalidInput (lit "Binary operator `*` not found")
| no_operand : forall t u, present c ts t -> operation_token t = true -> tokens_text ts u -> disorder ts InvalidExpression (lit "[" ++ u ++ lit "]")
| not_one_value : disorder ts InvalidExpression (lit "Invalid expression").

(** An operator or function among the tokens, or the implied multiplication, failed and said this. *)
Inductive failure (ts : list tok) (w' : W) : errkind -> str -> Prop :=
| unary_failed : forall u f x w k, In (TUnary u) ts -> get_unary c u = Some f -> uf_call f x w = (Err k, w') -> failure ts w' k (v_unary S_ u x w k)
| binary_failed : forall o f x y w k, present c ts (TBinary o) -> get_binary c o = Some f -> bf_call f x y w = (Err k, w') -> failure ts w' k (v_binary S_ o x y w k)
| function_failed : forall n f xs w k, In (TFunction n) ts -> get_function c n = Some f -> fn_call f xs w = (Err k, w') -> failure ts w' k (v_function S_ n xs w k).

(** A fault in the words of a text. *)
Variable parse : str -> option V.
Definition operator_word_only (s : str) : Prop :=
  parse s = None /\ get_variable c s = None /\ get_constant c s = None /\ get_function c s = None /\ (get_unary c s <> None \/ get_binary c s <> None).
Inductive bad_words (ws : list str) : errkind -> str -> Prop :=
| not_complex : forall l n r, ws = l ++ n :: lit "i" :: r -> complex_number (cfg c) = true -> parse n <> None -> parse (n ++ lit "i") = None ->
    bad_words ws InvalidInput (lit "failed to parse `" ++ n ++ lit "i` to `" ++ v_type S_ ++ lit "`.")
| first_operator : forall o r u v, ws = o :: r -> operator_word_only o -> optional None u -> optional (match r with [] => None | _ => Some o end) v ->
    bad_words ws InvalidExpression (lit "Binary operations need 2 operands: " ++ u ++ lit " " ++ o ++ lit " " ++ v)
| last_operator : forall l p o u v, ws = l ++ [p; o] -> operator_word_only o -> optional (Some p) u -> optional None v ->
    bad_words ws InvalidExpression (lit "Binary operations need 2 operands: " ++ u ++ lit " " ++ o ++ lit " " ++ v).

(** The values of an expression one after the other, or the first error among them, with its text. *)
Definition speech (A : Type) := W -> told A * W.
Definition afterwards {A B} (m : speech A) (f : A -> speech B) : speech B :=
  fun w => match m w with (Says a, w') => f a w' | (Errs k t, w') => (Errs k t, w') | (Dies, w') => (Dies, w') end.
Definition outcome (r : M W V) (text : W -> errkind -> str) : speech V :=
  fun w => match r w with (Ok v, w') => (Says v, w') | (Err k, w') => (Errs k (text w k), w') | (Panic, w') => (Dies, w') end.
Definition says {A} (a : A) : speech A := fun w => (Says a, w).
Definition nothing_called (what name : str) : speech V := fun w => (Errs InvalidInput (what ++ lit " " ++ ticks name ++ lit " not found"), w).
Fixpoint all_of (ms : list (speech V)) : speech (list V) :=
  match ms with [] => says [] | m :: ms' => afterwards m (fun v => afterwards (all_of ms') (fun vs => says (v :: vs))) end.
Definition tell_unary (u : str) (v : V) : speech V := match get_unary c u with Some f => outcome (uf_call f v) (v_unary S_ u v) | None => nothing_called (lit "Unary operator") u end.
Definition tell_binary (o : str) (x y : V) : speech V := match get_binary c o with Some f => outcome (bf_call f x y) (v_binary S_ o x y) | None => nothing_called (lit "Binary operator") o end.
Definition tell_function (f : str) (vs : list V) : speech V := match get_function c f with Some fn => outcome (fn_call fn vs) (v_function S_ f vs) | None => nothing_called (lit "Function") f end.
Fixpoint tell (e : expr V) : speech V :=
  match e with
  | ENum v => says v
  | EVar x => match get_variable c x with Some v => says v | None => nothing_called (lit "Variable") x end
  | EConst x => match get_constant c x with Some v => says v | None => nothing_called (lit "Constant") x end
  | EGroup _ e => tell e
  | ECall f _ args => afterwards (all_of (map tell args)) (tell_function f)
  | EPre u e | EPost e u => afterwards (tell e) (tell_unary u)
  | EBin o l r => afterwards (tell l) (fun x => afterwards (tell r) (tell_binary o x))
  | EMul l r => afterwards (tell l) (fun x => afterwards (tell r) (tell_binary times x))
  end.
End Spec.
