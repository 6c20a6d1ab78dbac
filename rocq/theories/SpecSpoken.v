(** * Specification: what contexts, the server and the command line say of errors *)
From Coq Require Import List NArith ZArith Bool String.
From Verif Require Import ModelBase ModelContext ModelEvaluator ModelText ModelSplit ModelTokenizer ModelDefault ModelFloat ModelMessage ModelSpoken SpecLex SpecRepl.
From Verif Require Import ModelServer SpecServer.
Import ListNotations.
Local Open Scope string_scope.
Local Open Scope list_scope.

(** ** Names *)

(** A name with which nothing can be registered in debug builds. [what]: what is to be named. *)
Inductive bad_name (what : string) (name : str) : errkind -> str -> Prop :=
| empty_name : blank name -> bad_name what name Empty (lit what ++ lit " name is empty")
| white_name : ~ blank name -> (exists c, In c name /\ is_whitespace c = true) ->
    bad_name what name InvalidInput (lit what ++ lit " names cannot contain whitespaces: `" ++ name ++ lit "`")
| control_name : (forall c, In c name -> is_whitespace c = false) -> (exists c, In c name /\ is_control c = true) ->
    bad_name what name InvalidInput (lit what ++ lit " names cannot contain control characters: `" ++ name ++ lit "`").
Definition good_name (name : str) : Prop := name <> [] /\ forall c, In c name -> is_whitespace c = false /\ is_control c = false.
(** Refused: a bad name in a debug build, otherwise a name that is taken. *)
Definition refuses (dbg : bool) (what : string) (name : str) (taken : Prop) (before after : string) (k : errkind) (m : str) : Prop :=
  (dbg = true /\ bad_name what name k m) \/ ((dbg = true -> good_name name) /\ taken /\ k = Unknown_ /\ m = lit before ++ name ++ lit after).

(** ** Answers *)
Section Kinds.
Context {D W : Type}.
Variable sv : service D W.
Variable G : tongues D W.
Variable E : env.
Variable dbg : bool.
(** The five types, with what each says. *)
Inductive spoken : number_type -> forall V, kind V W -> tongue V W -> Prop :=
| Spoken_decimal : spoken NDecimal D (decimal_kind sv E dbg) (g_decimal G)
| Spoken_float : spoken NFloat f64 (float_kind sv E dbg) (g_float G)
| Spoken_integer : spoken NInteger Z (integer_kind sv E dbg) (g_integer G)
| Spoken_complex : spoken NComplex ModelComplex.c64 (complex_kind sv E dbg) (g_complex G)
| Spoken_binary : spoken NBinary Z (binary_kind E dbg) (g_binary G).
(** On the command line, floats are not checked. *)
Inductive said_by_program : number_type -> forall V, kind V W -> tongue V W -> Prop :=
| Said_float : said_by_program NFloat f64 (unchecked_float_kind sv E dbg) (g_float G)
| Said_other : forall t V k g, t <> NFloat -> spoken t V k g -> said_by_program t V k g.

(** The answer to the outcome of an evaluation: the shown result, or the error's text. *)
Definition answer_of {V} (show : V -> str) (r : told V * W) : res (str + str) * W :=
  match r with (Says v, w) => (Ok (inl (show v)), w) | (Errs _ m, w) => (Ok (inr m), w) | (Dies, w) => (Panic, w) end.
(** What is said of a variable that is not accepted: that its text is no number, if it is none, otherwise why its name is refused. *)
Definition variable_refused {V} (read : str -> option V) (g : tongue V W) (d : dctx V W) (p : str * variable) (m : str) : Prop :=
  (read (value_text sv (snd p)) = None /\ m = t_unread g (value_text sv (snd p))) \/
  (read (value_text sv (snd p)) <> None /\ exists k, refuses dbg "Variable" (fst p) (exists x v, In (x, v) (d_consts d) /\ eq_ignore_case E x (fst p) = true)
     "Invalid variable name, a constant named `" "` exists" k m).
(** The error of an answer without its text: where it comes from. *)
Definition unworded (r : res eval_result * W) (r' : res (str + str) * W) : Prop :=
  match r, r' with
  | (Ok (inl s), w), (Ok (inl s'), w') => s = s' /\ w = w'
  | (Ok (inr x), w), (Ok (inr _), w') => (forall t, x <> Text t) /\ w = w'
  | (Panic, w), (Panic, w') => w = w'
  | _, _ => False
  end.
End Kinds.
(** What a line at the prompt prints, without the texts. *)
Definition unworded_line {V} (p : printed_line (V := V)) : ModelRepl.reply (V := V) := match p with Printed v => ModelRepl.Result v | Printed_error _ => ModelRepl.Message end.
