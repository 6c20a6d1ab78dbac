(** * Specification for the server and the command line: what each number type means, what a request's variables mean, who is a client *)
From Coq Require Import List NArith ZArith Bool String.
From Verif Require Import ModelBase ModelContext ModelEvaluator ModelText ModelSplit ModelTokenizer ModelDefault ModelFloat ModelNum ModelOps ModelParse ModelBinary ModelDecimal ModelComplex
  SpecRepl.
From Verif Require Import ModelServer.
Import ListNotations.

(** ** Number types *)

(** What the evaluation of an expression of some type uses: a context, how a variable's text and a number are read, how a number is
    written, and the splitter. *)
Record kind (V W : Type) := Kind {
  k_context : config -> res (dctx V W); k_read : str -> option V; k_parse : str -> option V; k_show : V -> str; k_rules : list rule }.
Arguments k_context {V W}. Arguments k_read {V W}. Arguments k_parse {V W}. Arguments k_show {V W}. Arguments k_rules {V W}. Arguments Kind {V W}.

Section Kinds.
Context {D W : Type}.
Variable sv : service D W.
Variable E : env.
Variable dbg : bool.

(** The five types: decimals, checked floats, checked 128-bit integers, complex numbers and binary numbers (whose variables are read as
    integers). *)
Definition decimal_kind : kind D W := Kind (decimals sv E dbg) (s_read_decimal sv) (s_read_decimal sv) (s_show_decimal sv) default_splitter.
Definition float_kind : kind f64 W := Kind (checked_floats sv E dbg) (s_read_f64 sv) (s_read_f64 sv) (s_show_f64 sv) default_splitter.
Definition integer_kind : kind Z W := Kind (integers sv E dbg) (parse_int i128) (parse_int i128) show_int default_splitter.
Definition complex_kind : kind c64 W := Kind (complexes sv E dbg) (s_read_complex sv) (s_read_complex sv) (s_show_complex sv) default_splitter.
Definition binary_kind : kind Z W := Kind (binaries E dbg) (parse_int i128) parse_binary show_binary binary_number_splitter.
Inductive serves : number_type -> forall V, kind V W -> Prop :=
| Serves_decimal : serves NDecimal D decimal_kind
| Serves_float : serves NFloat f64 float_kind
| Serves_integer : serves NInteger Z integer_kind
| Serves_complex : serves NComplex c64 complex_kind
| Serves_binary : serves NBinary Z binary_kind.
(** The server groups with parentheses and brackets and multiplies implicitly; complex numbers may end in [i]. *)
Definition server_settings (t : number_type) : config :=
  Config true (match t with NComplex => true | _ => false end) false [Parenthesis; Bracket].
(** The type of a request: decimal unless given. *)
Definition asked (q : request) : number_type := match q_type q with Some t => t | None => NDecimal end.
Definition given (q : request) : list (str * variable) := match q_variables q with Some l => l | None => [] end.

(** ** Variables *)
Section Variables.
Context {V : Type}.
Variable read : str -> option V.
Variable d : dctx V W.
(** The text of a variable's value. *)
Definition value_text (v : variable) : str := match v with VString s => s | VNumber x => s_show_f64 sv x end.
(** A variable is accepted if its name can be assigned and its text is a number. *)
Definition accepted (p : str * variable) : Prop := assignable E dbg d (fst p) /\ read (value_text (snd p)) <> None.
(** [d'] is [d] with these variables. *)
Definition with_variables (vars : list (str * variable)) (d' : dctx V W) : Prop :=
  same_but_variables d d' /\
  (forall x, ~ In x (map fst vars) -> get_variable (to_ctx E d') x = get_variable (to_ctx E d) x) /\
  (forall x t, In (x, t) vars -> get_variable (to_ctx E d') x = read (value_text t)).
End Variables.

(** The answer to the outcome of an evaluation. *)
Definition answer_to {V} (show : V -> str) (r : res V * W) : res eval_result * W :=
  match r with (Ok v, w) => (Ok (inl (show v)), w) | (Err k, w) => (Ok (inr (Failure k)), w) | (Panic, w) => (Panic, w) end.

(** ** Listing *)

(** The names listed are names of the context, and every name the context knows is listed, up to case. *)
Definition exactly_these {A} (names : list str) (find : str -> option A) : Prop :=
  (forall n, In n names -> find n <> None) /\ (forall n, find n <> None -> exists k, In k names /\ eq_ignore_case E n k = true).
Definition lists_exactly {V} (names : list str * list str * list str) (c : ctx V W) : Prop :=
  let '(functions, operators, constants) := names in
  exactly_these functions (get_function c) /\ exactly_these constants (get_constant c) /\
  (forall n, In n operators -> get_binary c n <> None \/ get_unary c n <> None) /\
  (forall n, get_binary c n <> None \/ get_unary c n <> None -> exists k, In k operators /\ eq_ignore_case E n k = true).
End Kinds.

(** ** Clients *)
Definition byte (n : N) : Prop := (n < 256)%N.
(** What a client is known by: its address if the connection has one, else its peer address, else its cookie, unless that is known not to
    be [HttpOnly]. *)
Inductive known_by : sender -> list N -> Prop :=
| By_address : forall a p c, known_by (Sender (Some a) p c) a
| By_peer : forall a c, known_by (Sender None (Some a) c) a
| By_cookie : forall v h, h <> Some false -> known_by (Sender None None (Some (v, h))) v.
(** Letters, digits, [+] and [/]. *)
Definition base64_char (c : char) : Prop :=
  (97 <= c <= 122)%N \/ (65 <= c <= 90)%N \/ (48 <= c <= 57)%N \/ c = 43%N \/ c = 47%N.

(** ** The command line *)

(** The names of the types on the command line. *)
Definition type_name (t : number_type) : string :=
  match t with NDecimal => "decimal" | NFloat => "float" | NInteger => "integer" | NComplex => "complex" | NBinary => "binary" end.
(** The command line evaluates with the same contexts as the server, except that floats are not checked. *)
Definition unchecked_float_kind {D W} (sv : service D W) (E : env) (dbg : bool) : kind f64 W :=
  Kind (unchecked_floats sv E dbg) (s_read_f64 sv) (s_read_f64 sv) (s_show_f64 sv) default_splitter.
Inductive runs {D W} (sv : service D W) (E : env) (dbg : bool) : number_type -> forall V, kind V W -> Prop :=
| Runs_float : runs sv E dbg NFloat f64 (unchecked_float_kind sv E dbg)
| Runs_other : forall t V k, t <> NFloat -> serves sv E dbg t V k -> runs sv E dbg t V k.
Definition command_line_settings (t : number_type) : config :=
  Config true (match t with NComplex => true | _ => false end) false [Parenthesis].
Definition printed {V W} (show : V -> str) (r : res V * W) : res str * W :=
  match r with (Ok v, w) => (Ok (show v), w) | (Err k, w) => (Err k, w) | (Panic, w) => (Panic, w) end.
