(** * What contexts, the server and the command line say: ModelDefault, ModelServer and ModelRepl again, with the texts of their errors

    As ModelMessage does for the evaluator. ProofSpoken shows that without the texts these functions are those of ModelDefault, ModelServer and
    ModelRepl, whose citations hold here too; only what is new is cited again. The text of the error with which a number type refuses to read a
    variable's text is left open ([t_unread]). *)
From Coq Require Import List NArith ZArith Bool Arith String.
From Verif Require Import ModelBase ModelContext ModelEvaluator ModelText ModelStr ModelSplit ModelTokenizer ModelDefault ModelFloat ModelNum ModelParse ModelBinary ModelMessage ModelRepl.
From Verif Require Import ModelServer ModelJson.
Import ListNotations.
Local Open Scope string_scope.
Local Open Scope list_scope.

(** ** Names *)

(** /repo/prexel/src/context.rs 729-746 *)
Inductive name_kind := AVariable | AConstant | AOperator | AFunction.
Definition kind_word (n : name_kind) : str :=
  match n with AVariable => lit "Variable" | AConstant => lit "Constant" | AOperator => lit "Operator" | AFunction => lit "Function" end.
(** context.rs 749-777 *)
Definition check_token_name_m (kind : name_kind) (name : str) : told unit :=
  match trim name with
  | [] => Errs Empty (kind_word kind ++ lit " name is empty")
  | _ =>
      if existsb is_whitespace name then Errs InvalidInput (kind_word kind ++ lit " names cannot contain whitespaces: `" ++ name ++ lit "`")
      else if existsb is_control name then Errs InvalidInput (kind_word kind ++ lit " names cannot contain control characters: `" ++ name ++ lit "`")
      else Says tt
  end.

Section Default.
Context {V W : Type}.
Variable E : env.
Variable dbg : bool.
Notation km := (key_match E).

Definition validate_m (kind : name_kind) (name : str) : told unit := if dbg then check_token_name_m kind name else Says tt.

(** context.rs 178-201, 208-231, 247-271. [taken] is the start of the message (185, 214, 254); [Display] of a name that ignores case
    shows it as it was given (utils/ignore_case_str.rs 46-51, utils/ignore_case_string.rs 46-58). *)
Definition register_m {A} (kind : name_kind) (taken : str) (aliases : list str) (f : A) (name : str) (m : list (str * A)) : told unit * list (str * A) :=
  match validate_m kind name with
  | Says _ =>
      if is_some (mget km m name) then (Errs Unknown_ (taken ++ lit " named '" ++ name ++ lit "' already exists"), m)
      else match insert_aliases E aliases f m with
           | (Ok _, m') => (Says tt, mput km m' name f)
           | (Err k, m') => (Errs k (kind_text k), m')
           | (Panic, m') => (Dies, m')
           end
  | Errs k t => (Errs k t, m)
  | Dies => (Dies, m)
  end.
Definition add_function_as_m (f : func V W) (name : str) (d : dctx V W) : told unit * dctx V W :=
  let (r, m) := register_m AFunction (lit "A function") (fn_aliases f) f name (d_funs d) in
  (r, DCtx (d_vars d) (d_consts d) m (d_unary d) (d_binary d) (d_config d)).
Definition add_unary_function_as_m (f : ufunc V W) (name : str) (d : dctx V W) : told unit * dctx V W :=
  let (r, m) := register_m AOperator (lit "An unary function") (uf_aliases f) f name (d_unary d) in
  (r, DCtx (d_vars d) (d_consts d) (d_funs d) m (d_binary d) (d_config d)).
Definition add_binary_function_as_m (f : bfunc V W) (name : str) (d : dctx V W) : told unit * dctx V W :=
  let (r, m) := register_m AOperator (lit "A binary function") (bf_aliases f) f name (d_binary d) in
  (r, DCtx (d_vars d) (d_consts d) (d_funs d) (d_unary d) m (d_config d)).
(** context.rs 305-318 *)
Definition add_constant_m (name : str) (v : V) (d : dctx V W) : told unit * dctx V W :=
  match validate_m AConstant name with
  | Says _ =>
      if existsb (fun p => eq_ignore_case E (fst p) name) (d_vars d) then (Errs Unknown_ (lit "Invalid constant name, a variable named `" ++ name ++ lit "` exists"), d)
      else (Says tt, DCtx (d_vars d) (mput km (d_consts d) name v) (d_funs d) (d_unary d) (d_binary d) (d_config d))
  | Errs k t => (Errs k t, d)
  | Dies => (Dies, d)
  end.
(** context.rs 320-335 *)
Definition set_variable_m (name : str) (v : V) (d : dctx V W) : told (option V) * dctx V W :=
  match validate_m AVariable name with
  | Says _ =>
      if existsb (fun p => eq_ignore_case E (fst p) name) (d_consts d) then (Errs Unknown_ (lit "Invalid variable name, a constant named `" ++ name ++ lit "` exists"), d)
      else (Says (mget str_eqb (d_vars d) name),
            DCtx (mput str_eqb (d_vars d) name v) (d_consts d) (d_funs d) (d_unary d) (d_binary d) (d_config d))
  | Errs k t => (Errs k t, d)
  | Dies => (Dies, d)
  end.
End Default.

(** ** The server *)

(** What the texts of a number type's errors depend on: its voice (ModelMessage), and what [from_str] says of a text that is no number. *)
Record tongue (V W : Type) := Tongue { t_voice : voice V W; t_unread : str -> str }.
Arguments Tongue {V W}. Arguments t_voice {V W}. Arguments t_unread {V W}.
Record tongues (D W : Type) := Tongues {
  g_decimal : tongue D W; g_float : tongue f64 W; g_integer : tongue Z W; g_complex : tongue ModelComplex.c64 W; g_binary : tongue Z W }.
Arguments g_decimal {D W}. Arguments g_float {D W}. Arguments g_integer {D W}. Arguments g_complex {D W}. Arguments g_binary {D W}.

Section Typed.
Context {V W : Type}.
Variable E : env.
Variable dbg : bool.
Variable read : str -> option V.
Variable parse : str -> option V.
Variable show : V -> str.
Variable show_f64 : f64 -> str.
Variable g : tongue V W.

(** services/evaluator.rs 33-45: [map_err(|err| err.to_string())?], [format!("{}", err)] *)
Fixpoint set_variables_m (vars : list (str * variable)) (d : dctx V W) : res (dctx V W + str) :=
  match vars with
  | [] => Ok (inl d)
  | (name, v) :: vars' =>
      match read (variable_text show_f64 v) with
      | Some x =>
          match set_variable_m E dbg name x d with
          | (Says _, d') => set_variables_m vars' d'
          | (Errs _ m, _) => Ok (inr m)
          | (Dies, _) => Panic
          end
      | None => Ok (inr (t_unread g (variable_text show_f64 v)))
      end
  end.
(** services/evaluator.rs 30-55: [error.to_string()] *)
Definition eval_typed_m (context : res (dctx V W)) (rules : list rule) (vars : option (list (str * variable))) (expression : str) : M W (str + str) :=
  fun w =>
  match context with
  | Ok d =>
      match set_variables_m (match vars with Some l => l | None => [] end) d with
      | Ok (inl d') =>
          match eval_m (to_ctx E d') (t_voice g) dbg parse (split_into_tokens rules) expression w with
          | (Says v, w') => (Ok (inl (show v)), w')
          | (Errs _ m, w') => (Ok (inr m), w')
          | (Dies, w') => (Panic, w')
          end
      | Ok (inr m) => (Ok (inr m), w)
      | _ => (Panic, w)
      end
  | _ => (Panic, w)
  end.
(** eval/src/eval_expr.rs 20-67, and the error as main.rs 87-88 writes it *)
Definition cli_typed_m (context : res (dctx V W)) (rules : list rule) (expression : str) (w : W) : told str * W :=
  match context with
  | Ok d =>
      match eval_m (to_ctx E d) (t_voice g) dbg parse (split_into_tokens rules) expression w with
      | (Says v, w') => (Says (show v), w')
      | (Errs k m, w') => (Errs k m, w')
      | (Dies, w') => (Dies, w')
      end
  | _ => (Dies, w)
  end.
End Typed.

Section Server.
Context {D W : Type}.
Variable sv : service D W.
Variable G : tongues D W.
Variable E : env.
Variable dbg : bool.

(** services/evaluator.rs 18-164 *)
Definition eval_expression_m (q : request) : M W (str + str) :=
  let vars := q_variables q in
  let e := q_expression q in
  match (match q_type q with Some t => t | None => NDecimal end) with
  | NDecimal => eval_typed_m E dbg (s_read_decimal sv) (s_read_decimal sv) (s_show_decimal sv) (s_show_f64 sv) (g_decimal G) (decimals sv E dbg server_config) default_splitter vars e
  | NFloat => eval_typed_m E dbg (s_read_f64 sv) (s_read_f64 sv) (s_show_f64 sv) (s_show_f64 sv) (g_float G) (checked_floats sv E dbg server_config) default_splitter vars e
  | NInteger => eval_typed_m E dbg (parse_int i128) (parse_int i128) show_int (s_show_f64 sv) (g_integer G) (integers sv E dbg server_config) default_splitter vars e
  | NComplex => eval_typed_m E dbg (s_read_complex sv) (s_read_complex sv) (s_show_complex sv) (s_show_f64 sv) (g_complex G)
                  (complexes sv E dbg (config_with_complex_number server_config true)) default_splitter vars e
  | NBinary => eval_typed_m E dbg (parse_int i128) parse_binary show_binary (s_show_f64 sv) (g_binary G) (binaries E dbg server_config) binary_number_splitter vars e
  end.
(** endpoints/mod.rs 19-56, models/mod.rs 52-80: the status and the bytes of the response *)
Definition post_eval_m (number : str -> option f64) (otherwise : str -> received) (body : list N) (query : str) (w : W) : res (N * list N) * W :=
  let json (result error : option str) := utf8 (write_json (JObject [(lit "result", optional result); (lit "error", optional error)])) in
  match receive number otherwise body with
  | NotUtf8 => (Ok (400%N, json None (Some (lit "Invalid JSON"))), w)
  | NotARequest path => (Ok (400%N, json None (Some (if str_eqb path (lit ".") then lit "Invalid json" else lit "Invalid value type at path: " ++ path))), w)
  | Received q =>
      match eval_expression_m q w with
      | (Ok (inl s), w') => (Ok (200%N, if match only_result query with Some b => b | None => false end then utf8 s else json (Some s) None), w')
      | (Ok (inr m), w') => (Ok (200%N, json None (Some m)), w')
      | (Err k, w') => (Err k, w')
      | (Panic, w') => (Panic, w')
      end
  end.
(** eval/src/eval_expr.rs 20-67 *)
Definition cli_eval_m (t : number_type) (expression : str) : W -> told str * W :=
  match t with
  | NDecimal => cli_typed_m E dbg (s_read_decimal sv) (s_show_decimal sv) (g_decimal G) (decimals sv E dbg cli_config) default_splitter expression
  | NComplex => cli_typed_m E dbg (s_read_complex sv) (s_show_complex sv) (g_complex G) (complexes sv E dbg (config_with_complex_number cli_config true)) default_splitter expression
  | NFloat => cli_typed_m E dbg (s_read_f64 sv) (s_show_f64 sv) (g_float G) (unchecked_floats sv E dbg cli_config) default_splitter expression
  | NInteger => cli_typed_m E dbg (parse_int i128) show_int (g_integer G) (integers sv E dbg cli_config) default_splitter expression
  | NBinary => cli_typed_m E dbg parse_binary show_binary (g_binary G) (binaries E dbg cli_config) binary_number_splitter expression
  end.
End Server.

(** ** The prompt *)
Section EvalLoop.
Context {V W : Type}.
Variable E : env.
Variable dbg : bool.
Variable parse : str -> option V.
Variable is_binary : bool.
Variable g : tongue V W.
(** What a line prints: a result, or an error's text in red. *)
Inductive printed_line := Printed (v : V) | Printed_error (m : str).
(** /repo/eval/src/repl/mod.rs 81-130 *)
Definition loop_line_m (s : str) (st : dctx V W * W * list printed_line) : res flow * (dctx V W * W * list printed_line) :=
  let '(d, w, out) := st in
  let expression := trim s in
  if str_eqb expression (lit "exit") then (Ok FBreak, st)
  else if existsb (char_eqb 61%N) expression then
    match map trim (split_on 61%N expression) with
    | [variable; value] =>
        match parse value with
        | Some v =>
            match set_variable_m E dbg variable v d with
            | (Says _, d') => (Ok FNone, (d', w, out))
            | (Errs _ m, d') => (Ok FNone, (d', w, out ++ [Printed_error m]))
            | (Dies, d') => (Panic, (d', w, out))
            end
        | None => (Ok FNone, (d, w, out ++ [Printed_error (t_unread g value)]))
        end
    | _ => (Ok FNone, (d, w, out ++ [Printed_error (lit "Invalid assignment")]))
    end
  else
    match eval_m (to_ctx E d) (t_voice g) dbg parse (split_into_tokens (repl_splitter is_binary)) expression w with
    | (Says v, w') =>
        match set_variable_m E dbg result_name v d with
        | (Says _, d') => (Ok FNone, (d', w', out ++ [Printed v]))
        | (Errs _ m, d') => (Ok FNone, (d', w', out ++ [Printed v; Printed_error m]))
        | (Dies, d') => (Panic, (d', w', out))
        end
    | (Errs _ m, w') => (Ok FNone, (d, w', out ++ [Printed_error m]))
    | (Dies, w') => (Panic, (d, w', out))
    end.
End EvalLoop.
