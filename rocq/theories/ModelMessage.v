(** * The messages of errors: the tokenizer and the evaluator again, with the texts of their errors

    The other models keep only the kind of an error. Here each place that makes an error also says its text, as [Error]'s [Display] shows it
    (/repo/prexel/src/error.rs 218-226: the given text, or that of the kind); ProofMessage shows that without the texts these functions are
    those of ModelTokenizer and ModelEvaluator. The lines cited there are those modelled here; only what is new is cited again. *)
From Coq Require Import List NArith ZArith Bool Arith String.
From Verif Require Import ModelBase ModelContext ModelEvaluator ModelText ModelStr ModelSplit ModelTokenizer ModelDefault.
From Verif Require ModelServer.
Import ListNotations.
Local Open Scope string_scope.
Local Open Scope list_scope.

(** [Result], with the error's kind and text. *)
Inductive told (A : Type) := Says (a : A) | Errs (k : errkind) (m : str) | Dies.
Arguments Says {A}. Arguments Errs {A}. Arguments Dies {A}.
Definition tbind {A B} (r : told A) (f : A -> told B) : told B := match r with Says a => f a | Errs k m => Errs k m | Dies => Dies end.
(** Without the texts. *)
Definition heard {A} (r : told A) : res A := match r with Says a => Ok a | Errs k _ => Err k | Dies => Panic end.

(** error.rs 54-70: [ErrorKind::as_str] *)
Definition kind_text (k : errkind) : str :=
  match k with
  | Overflow => lit "Value has overflow"
  | Zero => lit "Value is zero"
  | NAN => lit "Value is 'not a number'"
  | InvalidInput => lit "Invalid input"
  | InvalidArgumentCount => lit "Invalid number of arguments"
  | DivisionByZero => lit "Cannot divide by zero"
  | NegativeValue => lit "Value is negative"
  | PositiveValue => lit "Value is positive"
  | Empty => lit "Empty input"
  | InvalidExpression => lit "Invalid expression"
  | Unknown_ => lit "Unknown error"
  end.

(** What the texts depend on besides the context: the name of the number type ([type_name]), how its numbers are printed with [{:?}], how
    [{:?}] writes a character that is not a printable ASCII one, and the texts of the errors that operators and functions return, which may
    depend on the arguments and the state. *)
Record voice (V W : Type) := Voice {
  v_type : str; v_number : V -> str; v_odd : char -> str;
  v_unary : str -> V -> W -> errkind -> str; v_binary : str -> V -> V -> W -> errkind -> str; v_function : str -> list V -> W -> errkind -> str }.
Arguments v_type {V W}. Arguments v_number {V W}. Arguments v_odd {V W}. Arguments v_unary {V W}. Arguments v_binary {V W}. Arguments v_function {V W}.

Section Messages.
Context {V W : Type}.
Variable c : ctx V W.
Variable S_ : voice V W.
Variable dbg : bool.
Notation tok := (token V).

(** ** [{:?}] of characters, strings and tokens *)

(** The standard library's: a backslash and the quote in use are written with a backslash. *)
Definition debug_in (quote : N) (ch : char) : str :=
  if (N.eqb ch 92 || N.eqb ch quote)%bool then [92%N; ch] else if (N.leb 32 ch && N.leb ch 126)%bool then [ch] else v_odd S_ ch.
Definition debug_str (s : str) : str := [34%N] ++ List.concat (map (debug_in 34) s) ++ [34%N].
Definition debug_char (ch : char) : str := [39%N] ++ debug_in 39 ch ++ [39%N].
Definition debug_option (o : option str) : str := match o with Some s => lit "Some(" ++ debug_str s ++ lit ")" | None => lit "None" end.
(** /repo/prexel/src/token.rs 51-68 *)
Definition debug_token (t : tok) : str :=
  match t with
  | TNumber n => lit "Number(" ++ v_number S_ n ++ lit ")"
  | TVariable x => lit "Variable(" ++ debug_str x ++ lit ")"
  | TConstant x => lit "Constant(" ++ debug_str x ++ lit ")"
  | TFunction f => lit "Function(" ++ debug_str f ++ lit ")"
  | TBinary o => lit "BinaryOperator('" ++ debug_str o ++ lit "')"
  | TUnary u => lit "UnaryOperator('" ++ debug_str u ++ lit "')"
  | TArgCount n => lit "ArgCount(" ++ ModelServer.show_int (Z.of_nat n) ++ lit ")"
  | TOpen ch => lit "ParenthesisOpen('" ++ debug_char ch ++ lit "')"
  | TClose ch => lit "ParenthesisClose('" ++ debug_char ch ++ lit "')"
  | TUnknown x => lit "Unknown(" ++ debug_str x ++ lit ")"
  | TComma => lit "Comma"
  end.
Fixpoint join_with (sep : str) (l : list str) : str := match l with [] => [] | [x] => x | x :: l' => x ++ sep ++ join_with sep l' end.
Definition debug_tokens (ts : list tok) : str := lit "[" ++ join_with (lit ", ") (map debug_token ts) ++ lit "]".

(** ** The tokenizer *)
Variable parse : str -> option V.

(** tokenizer.rs 94-104 *)
Definition m_failed (s : str) : str := lit "failed to parse `" ++ s ++ lit "` to `" ++ v_type S_ ++ lit "`.".
(** tokenizer.rs 126-150. [next] is [raw_tokens[pos]], the word itself, unless it is the last. *)
Definition m_operands (prev : option str) (string : str) (has_next : bool) : str :=
  lit "Binary operations need 2 operands: " ++ debug_option prev ++ lit " " ++ string ++ lit " " ++ debug_option (if has_next then Some string else None).
Definition classify_m (prev : option str) (string : str) (has_next : bool) : told (option tok) :=
  if is_variable c string then Says (Some (TVariable string))
  else if is_constant c string then Says (Some (TConstant string))
  else if is_function_name c string then Says (Some (TFunction string))
  else if is_binary_function c string || is_unary_function c string then
    match is_unary c parse prev string has_next with
    | Ok u =>
        if u then Says (Some (TUnary string))
        else if negb (is_some prev) || negb has_next then Errs InvalidExpression (m_operands prev string has_next)
        else Says (Some (TBinary string))
    | Err k => Errs k (kind_text k)
    | Panic => Dies
    end
  else if str_eqb string (lit ",") then Says (Some TComma)
  else if str_eqb string (lit " ") then Says None
  else match (if Nat.eqb (byte_len string) 1 then
                match string with ch :: _ => option_map (fun p => (ch, fst p)) (get_group_symbol (cfg c) ch) | [] => None end
              else None) with
       | Some (ch, open) => Says (Some (if char_eqb ch open then TOpen ch else TClose ch))
       | None => Says (Some (TUnknown string))
       end.
Fixpoint tokenize_loop_m (prev : option str) (raw : list str) : told (list tok) :=
  match raw with
  | [] => Says []
  | string :: rest =>
      match parse string with
      | Some n =>
          match rest with
          | im :: rest' =>
              if complex_number (cfg c) && str_eqb im (lit "i") then
                match parse (string ++ im) with
                | Some n' => tbind (tokenize_loop_m (Some im) rest') (fun ts => Says (TNumber n' :: ts))
                | None => Errs InvalidInput (m_failed (string ++ im))
                end
              else tbind (tokenize_loop_m (Some string) rest) (fun ts => Says (TNumber n :: ts))
          | [] => Says [TNumber n]
          end
      | None =>
          tbind (classify_m prev string (negb (Nat.eqb (List.length rest) 0))) (fun o =>
          tbind (tokenize_loop_m (Some string) rest) (fun ts =>
          Says match o with Some t => t :: ts | None => ts end))
      end
  end.
(** tokenizer.rs 74 *)
Definition tokenize_m (splitter : str -> list str) (expression : str) : told (list tok) :=
  match trim expression with
  | [] => Errs Empty (lit "Expression is empty")
  | _ => tokenize_loop_m None (splitter expression)
  end.

(** ** The evaluator *)
Definition quoted (s : str) : str := lit "`" ++ s ++ lit "`".

(** evaluator.rs 514-528 *)
Definition push_unary_function_m (name : str) (y : yard (V := V)) : told (yard (V := V)) :=
  match get_unary c name with
  | Some u =>
      match uf_notation u with
      | Prefix => Says (Yard (y_out y) (TUnary name :: y_ops y) (y_argc y) (y_grp y))
      | Postfix =>
          match y_out y with
          | [] => Errs InvalidExpression (lit "Misplace unary operator")
          | _ => Says (Yard (y_out y ++ [TUnary name]) (y_ops y) (y_argc y) (y_grp y))
          end
      end
  | None => Errs InvalidInput (lit "Unary operator " ++ quoted name ++ lit " not found")
  end.
(** evaluator.rs 539-544 *)
Definition push_binary_function_m (name : str) (y : yard (V := V)) : told (yard (V := V)) :=
  match get_binary c name with
  | None => Errs InvalidInput (lit "Binary function " ++ quoted name ++ lit " not found")
  | Some op =>
      let (out, ops) := pop_operators c op (y_out y) (y_ops y) in
      Says (Yard out (TBinary name :: ops) (y_argc y) (y_grp y))
  end.
(** evaluator.rs 619-623 *)
Definition m_close : str := lit "Misplace grouping symbol".
Fixpoint close_loop_m (close : char) (out ops : list tok) (argc : list nat) : told (list tok * list tok * list nat) :=
  match ops with
  | [] => Errs InvalidExpression m_close
  | TOpen o :: ops' =>
      match get_group_symbol (cfg c) o with
      | Some (_, cl) =>
          if char_eqb cl close then
            match argc, ops' with
            | n :: argc', TFunction f :: ops'' =>
                Says (out ++ [TArgCount (n + 1)] ++ [TFunction f], ops'', argc')
            | _, _ => Says (out, ops', argc)
            end
          else Errs InvalidExpression m_close
      | None => Errs InvalidExpression m_close
      end
  | t :: ops' => close_loop_m close (out ++ [t]) ops' argc
  end.
(** evaluator.rs 657-658 *)
Fixpoint comma_loop_m (out ops : list tok) : told (list tok * list tok) :=
  match ops with
  | [] => Errs InvalidExpression (lit "Misplace comma")
  | TOpen _ :: _ => Says (out, ops)
  | t :: ops' => comma_loop_m (out ++ [t]) ops'
  end.
(** evaluator.rs 635-640 *)
Definition push_comma_m (y : yard (V := V)) : told (yard (V := V)) :=
  match y_argc y with
  | [] => Errs InvalidExpression (lit "Comma found but not function")
  | n :: argc' =>
      tbind (comma_loop_m (y_out y) (y_ops y)) (fun '(out, ops) => Says (Yard out ops (S n :: argc') (y_grp y)))
  end.
(** evaluator.rs 455-478 *)
Definition check_comma_position_m (tokens : list tok) (grp : list nat) (pos : nat) : told unit :=
  if (pos =? 0)%nat then Errs InvalidInput (lit "Misplaced comma")
  else if tok_at tokens (pos - 1) is_grouping_open then Errs InvalidInput (lit "Misplaced comma: `(,`")
  else if tok_at tokens (pos + 1) is_grouping_close then Errs InvalidInput (lit "Misplaced comma: `,)`")
  else match grp with
       | [] => Says tt
       | 0 :: _ => if dbg then Dies else Errs InvalidInput (lit "Misplaced comma")
       | S l :: _ => if tok_at tokens l is_function then Says tt else Errs InvalidInput (lit "Misplaced comma")
       end.
(** evaluator.rs 379-387 *)
Definition step_close_m (tokens : list tok) (pos : nat) (close : char) (y : yard (V := V)) : told (yard (V := V)) :=
  tbind (close_loop_m close (y_out y) (y_ops y) (y_argc y)) (fun '(out, ops, argc) =>
  let y' := Yard out ops argc (match argc with [] => y_grp y | _ => tl (y_grp y) end) in
  if (1 <? pos)%nat then
    match nth_error tokens (pos - 1) with
    | None => Dies
    | Some (TOpen s) =>
        match get_group_open_for (cfg c) close with
        | Some v =>
            if char_eqb v s then
              match nth_error tokens (pos - 2) with
              | None => Dies
              | Some t => if negb (is_function t) then Errs InvalidInput (lit "Empty grouping symbols: " ++ [v; close]) else Says y'
              end
            else Says y'
        | None => Says y'
        end
    | Some _ => Says y'
    end
  else Says y').
(** evaluator.rs 348-354, 400-405 *)
Definition yard_step_m (tokens : list tok) (pos : nat) (t : tok) (next : option tok) (y : yard (V := V)) : told (yard (V := V)) :=
  match t with
  | TNumber _ | TVariable _ | TConstant _ => Says (push_number c t y)
  | TBinary name => push_binary_function_m name y
  | TUnary name => push_unary_function_m name y
  | TFunction name =>
      if negb (custom_function_call (cfg c))
         && negb (match next with Some n => contains_symbol n 40%N | None => false end)
      then Errs InvalidInput (lit "Function arguments of " ++ quoted name ++ lit " are not within a parentheses")
      else Says (Yard (y_out y) (t :: y_ops y) (0 :: y_argc y) (y_grp y))
  | TOpen _ =>
      Says (Yard (y_out y) (t :: y_ops y) (y_argc y)
               (match y_argc y with [] => y_grp y | _ => pos :: y_grp y end))
  | TClose close => step_close_m tokens pos close y
  | TComma => tbind (check_comma_position_m tokens (y_grp y) pos) (fun _ => push_comma_m y)
  | TArgCount _ | TUnknown _ => Errs InvalidInput (lit "Invalid token: " ++ debug_token t)
  end.
Fixpoint yard_loop_m (tokens : list tok) (pos : nat) (rest : list tok) (y : yard (V := V)) : told (yard (V := V)) :=
  match rest with
  | [] => Says y
  | t :: rest' =>
      tbind (yard_step_m tokens pos t (hd_error rest') y)
            (fun y' => yard_loop_m tokens (S pos) rest' (push_implicit c t (hd_error rest') y'))
  end.
(** evaluator.rs 437-442 *)
Fixpoint finish_m (out ops : list tok) : told (list tok) :=
  match ops with
  | [] => Says out
  | t :: ops' => if is_grouping_close t then Errs InvalidExpression (lit "Misplace parentheses") else finish_m (out ++ [t]) ops'
  end.
Definition infix_to_rpn_m (tokens : list tok) : told (list tok) :=
  tbind (yard_loop_m tokens 0 tokens (Yard [] [] [] [])) (fun y => finish_m (y_out y) (y_ops y)).

(** A call: its error with its text. *)
Definition called {A} (r : res V * W) (text : errkind -> str) (next : V -> W -> told A * W) : told A * W :=
  match r with (Ok v, w') => next v w' | (Err k, w') => (Errs k (text k), w') | (Panic, w') => (Dies, w') end.
(** evaluator.rs 140-262. [tokens]: the tokens in infix order, which 184-187 and 205-208 print. *)
Fixpoint rpn_loop_m (tokens rpn : list tok) (values : list V) (ac : option nat) (w : W) : told (list V) * W :=
  match rpn with
  | [] => (Says values, w)
  | t :: rpn' =>
      match t with
      | TNumber v => rpn_loop_m tokens rpn' (v :: values) ac w
      | TVariable x =>
          match get_variable c x with
          | None => (Errs InvalidInput (lit "Variable " ++ quoted x ++ lit " not found"), w)
          | Some v => rpn_loop_m tokens rpn' (v :: values) ac w
          end
      | TConstant x =>
          match get_constant c x with
          | None => (Errs InvalidInput (lit "Constant " ++ quoted x ++ lit " not found"), w)
          | Some v => rpn_loop_m tokens rpn' (v :: values) ac w
          end
      | TArgCount n => if dbg && is_some ac then (Dies, w) else rpn_loop_m tokens rpn' values (Some n) w
      | TUnary u =>
          match get_unary c u with
          | None => (Errs InvalidInput (lit "Unary operator " ++ quoted u ++ lit " not found"), w)
          | Some f => match values with
                      | v :: values' => called (uf_call f v w) (v_unary S_ u v w) (fun r => rpn_loop_m tokens rpn' (r :: values') ac)
                      | [] => (Errs InvalidExpression (debug_tokens tokens), w)
                      end
          end
      | TBinary o =>
          match get_binary c o with
          | None => (Errs InvalidInput (lit "Binary operator " ++ quoted o ++ lit " not found"), w)
          | Some f => match values with
                      | x :: y :: values' => called (bf_call f y x w) (v_binary S_ o y x w) (fun r => rpn_loop_m tokens rpn' (r :: values') ac)
                      | _ => (Errs InvalidExpression (debug_tokens tokens), w)
                      end
          end
      | TFunction f =>
          match get_function c f with
          | None => (Errs InvalidInput (lit "Function " ++ quoted f ++ lit " not found"), w)
          | Some fn =>
              match ac with
              | None => (Errs InvalidInput (lit "Cannot evaluate function " ++ quoted f ++ lit ", unknown number of arguments"), w)
              | Some n => let (values', args) := pop_args n values [] in
                          called (fn_call fn (rev args) w) (v_function S_ f (rev args) w) (fun r => rpn_loop_m tokens rpn' (r :: values') None)
              end
          end
      | TOpen _ | TClose _ | TUnknown _ | TComma => (Errs InvalidInput (lit "Unknown token: " ++ quoted (debug_token t)), w)
      end
  end.
(** evaluator.rs 265-269 *)
Definition eval_tokens_m (tokens : list tok) (w : W) : told V * W :=
  match infix_to_rpn_m tokens with
  | Says rpn =>
      match rpn_loop_m tokens rpn [] None w with
      | (Says [v], w') => (Says v, w')
      | (Says _, w') => (Errs InvalidExpression (kind_text InvalidExpression), w')
      | (Errs k m, w') => (Errs k m, w')
      | (Dies, w') => (Dies, w')
      end
  | Errs k m => (Errs k m, w)
  | Dies => (Dies, w)
  end.
(** evaluator.rs 100-104: [Evaluator::eval] *)
Definition eval_m (splitter : str -> list str) (expression : str) (w : W) : told V * W :=
  match tokenize_m splitter expression with
  | Says tokens => eval_tokens_m tokens w
  | Errs k m => (Errs k m, w)
  | Dies => (Dies, w)
  end.
End Messages.
