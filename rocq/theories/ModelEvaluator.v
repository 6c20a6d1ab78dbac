(** * The evaluator: infix to postfix, and postfix evaluation *)
From Coq Require Import List NArith Bool Arith.
From Verif Require Import ModelBase ModelContext.
Import ListNotations.

Section Evaluator.
Context {V W : Type}.
Variable c : ctx V W.
(** [dbg]: compiled with debug assertions and overflow checks. *)
Variable dbg : bool.

Notation tok := (token V).

(** The four vectors of /repo/prexel/src/evaluator.rs 322-325. [out] is in order; the three stacks have their
    top at the head. *)
Record yard := Yard { y_out : list tok; y_ops : list tok; y_argc : list nat; y_grp : list nat }.

(** evaluator.rs 483-495: [push_number] *)
Definition push_number (t : tok) (y : yard) : yard :=
  let out := y_out y ++ [t] in
  match y_ops y with
  | TUnary u :: ops' =>
      if is_some (get_unary c u) then Yard (out ++ [TUnary u]) ops' (y_argc y) (y_grp y)
      else Yard out (y_ops y) (y_argc y) (y_grp y)
  | _ => Yard out (y_ops y) (y_argc y) (y_grp y)
  end.

(** evaluator.rs 497-530: [push_unary_function] *)
Definition push_unary_function (name : str) (y : yard) : res yard :=
  match get_unary c name with
  | Some u =>
      match uf_notation u with
      | Prefix => Ok (Yard (y_out y) (TUnary name :: y_ops y) (y_argc y) (y_grp y))
      | Postfix =>
          match y_out y with
          | [] => Err InvalidExpression
          | _ => Ok (Yard (y_out y ++ [TUnary name]) (y_ops y) (y_argc y) (y_grp y))
          end
      end
  | None => Err InvalidInput
  end.

(** evaluator.rs 563-565: the condition under which the operator on the stack is popped. *)
Definition pop_condition (top op : bfunc V W) : bool :=
  (bf_prec op <? bf_prec top)%N
  || ((bf_prec top =? bf_prec op)%N && match bf_assoc top with LeftA => true | RightA => false end).

(** evaluator.rs 546-577: the [while] loop of [push_binary_function] *)
Fixpoint pop_operators (op : bfunc V W) (out ops : list tok) : list tok * list tok :=
  match ops with
  | [] => (out, [])
  | t :: ops' =>
      match t with
      | TOpen _ => (out, ops)
      | TFunction _ => pop_operators op (out ++ [t]) ops'
      | TBinary o =>
          match get_binary c o with
          | Some top => if pop_condition top op then pop_operators op (out ++ [t]) ops' else (out, ops)
          | None => (out, ops)
          end
      | _ => (out, ops)
      end
  end.

(** evaluator.rs 532-581: [push_binary_function] *)
Definition push_binary_function (name : str) (y : yard) : res yard :=
  match get_binary c name with
  | None => Err InvalidInput
  | Some op =>
      let (out, ops) := pop_operators op (y_out y) (y_ops y) in
      Ok (Yard out (TBinary name :: ops) (y_argc y) (y_grp y))
  end.

(** evaluator.rs 595-617: the loop of [push_grouping_close], with the error of 619-623 *)
Fixpoint close_loop (close : char) (out ops : list tok) (argc : list nat) : res (list tok * list tok * list nat) :=
  match ops with
  | [] => Err InvalidExpression
  | TOpen o :: ops' =>
      match get_group_symbol (cfg c) o with
      | Some (_, cl) =>
          if char_eqb cl close then
            match argc, ops' with
            | n :: argc', TFunction f :: ops'' =>
                Ok (out ++ [TArgCount (n + 1)] ++ [TFunction f], ops'', argc')
            | _, _ => Ok (out, ops', argc)
            end
          else Err InvalidExpression
      | None => Err InvalidExpression
      end
  | t :: ops' => close_loop close (out ++ [t]) ops' argc
  end.

(** evaluator.rs 645-655 (and 657-661): the loop of [push_comma] *)
Fixpoint comma_loop (out ops : list tok) : res (list tok * list tok) :=
  match ops with
  | [] => Err InvalidExpression
  | TOpen _ :: _ => Ok (out, ops)
  | t :: ops' => comma_loop (out ++ [t]) ops'
  end.

(** evaluator.rs 629-662: [push_comma] *)
Definition push_comma (y : yard) : res yard :=
  match y_argc y with
  | [] => Err InvalidExpression
  | n :: argc' =>
      rbind (comma_loop (y_out y) (y_ops y)) (fun '(out, ops) => Ok (Yard out ops (S n :: argc') (y_grp y)))
  end.

Definition tok_at (tokens : list tok) (i : nat) (p : tok -> bool) : bool :=
  match nth_error tokens i with Some t => p t | None => false end.

(** evaluator.rs 450-481: [check_comma_position]. [last - 1] underflows when the position on the stack is 0: a
    panic in debug builds, a huge index (so no token) in release builds. *)
Definition check_comma_position (tokens : list tok) (grp : list nat) (pos : nat) : res unit :=
  if (pos =? 0)%nat then Err InvalidInput
  else if tok_at tokens (pos - 1) is_grouping_open then Err InvalidInput
  else if tok_at tokens (pos + 1) is_grouping_close then Err InvalidInput
  else match grp with
       | [] => Ok tt
       | 0 :: _ => if dbg then Panic else Err InvalidInput
       | S l :: _ => if tok_at tokens l is_function then Ok tt else Err InvalidInput
       end.

(** evaluator.rs 367-395: a closing symbol at position [pos]. The slice accesses [tokens[pos-1]] and
    [tokens[pos-2]] panic when out of range. *)
Definition step_close (tokens : list tok) (pos : nat) (close : char) (y : yard) : res yard :=
  rbind (close_loop close (y_out y) (y_ops y) (y_argc y)) (fun '(out, ops, argc) =>
  let y' := Yard out ops argc (match argc with [] => y_grp y | _ => tl (y_grp y) end) in
  if (1 <? pos)%nat then
    match nth_error tokens (pos - 1) with
    | None => Panic
    | Some (TOpen s) =>
        if match get_group_open_for (cfg c) close with Some v => char_eqb v s | None => false end then
          match nth_error tokens (pos - 2) with
          | None => Panic
          | Some t => if negb (is_function t) then Err InvalidInput else Ok y'
          end
        else Ok y'
    | Some _ => Ok y'
    end
  else Ok y').

(** evaluator.rs 329-406: one token at position [pos]; [next] is the peeked token. *)
Definition yard_step (tokens : list tok) (pos : nat) (t : tok) (next : option tok) (y : yard) : res yard :=
  match t with
  | TNumber _ | TVariable _ | TConstant _ => Ok (push_number t y)
  | TBinary name => push_binary_function name y
  | TUnary name => push_unary_function name y
  | TFunction _ =>
      if negb (custom_function_call (cfg c))
         && negb (match next with Some n => contains_symbol n 40%N | None => false end)
      then Err InvalidInput
      else Ok (Yard (y_out y) (t :: y_ops y) (0 :: y_argc y) (y_grp y))
  | TOpen _ =>
      Ok (Yard (y_out y) (t :: y_ops y) (y_argc y)
               (match y_argc y with [] => y_grp y | _ => pos :: y_grp y end))
  | TClose close => step_close tokens pos close y
  | TComma => rbind (check_comma_position tokens (y_grp y) pos) (fun _ => push_comma y)
  | TArgCount _ | TUnknown _ => Err InvalidInput
  end.

(** evaluator.rs 408-433: whether a [*] is pushed after [t] when [next] follows. *)
Definition implicit_here (t : tok) (next : option tok) : bool :=
  implicit_mul (cfg c) &&
  match t, next with
  | TNumber _, Some (TFunction _ | TConstant _ | TVariable _ | TOpen _) => true
  | TClose _, Some (TNumber _ | TVariable _ | TConstant _ | TFunction _ | TOpen _) => true
  | _, _ => false
  end.

Definition star : str := [42%N].

Definition push_implicit (t : tok) (next : option tok) (y : yard) : yard :=
  if implicit_here t next
  then Yard (y_out y) (TBinary star :: y_ops y) (y_argc y) (y_grp y) else y.

(** evaluator.rs 327-434: the loop over the tokens *)
Fixpoint yard_loop (tokens : list tok) (pos : nat) (rest : list tok) (y : yard) : res yard :=
  match rest with
  | [] => Ok y
  | t :: rest' =>
      rbind (yard_step tokens pos t (hd_error rest') y)
            (fun y' => yard_loop tokens (S pos) rest' (push_implicit t (hd_error rest') y'))
  end.

(** evaluator.rs 436-445: the final loop; as in the code only closing symbols are refused. *)
Fixpoint finish (out ops : list tok) : res (list tok) :=
  match ops with
  | [] => Ok out
  | t :: ops' => if is_grouping_close t then Err InvalidExpression else finish (out ++ [t]) ops'
  end.

(** evaluator.rs 317-448 and 291-297: [infix_to_rpn] *)
Definition infix_to_rpn (tokens : list tok) : res (list tok) :=
  rbind (yard_loop tokens 0 tokens (Yard [] [] [] [])) (fun y => finish (y_out y) (y_ops y)).

(** evaluator.rs 235-245: popping the arguments; a missing value is skipped (the error built there is dropped) *)
Fixpoint pop_args (n : nat) (values args : list V) : list V * list V :=
  match n with
  | 0 => (values, args)
  | S n' => match values with
            | v :: values' => pop_args n' values' (args ++ [v])
            | [] => pop_args n' [] args
            end
  end.

(** evaluator.rs 137-262: the loop over the postfix tokens. [values] has its top at the head. *)
Fixpoint rpn_loop (rpn : list tok) (values : list V) (ac : option nat) : M W (list V) :=
  match rpn with
  | [] => ret values
  | t :: rpn' =>
      match t with
      | TNumber v => rpn_loop rpn' (v :: values) ac
      | TVariable x =>
          match get_variable c x with
          | None => fail InvalidInput
          | Some v => rpn_loop rpn' (v :: values) ac
          end
      | TConstant x =>
          match get_constant c x with
          | None => fail InvalidInput
          | Some v => rpn_loop rpn' (v :: values) ac
          end
      | TArgCount n =>
          if dbg && is_some ac then crash else rpn_loop rpn' values (Some n)
      | TUnary u =>
          match get_unary c u with
          | None => fail InvalidInput
          | Some f => match values with
                      | v :: values' => bind (uf_call f v) (fun r => rpn_loop rpn' (r :: values') ac)
                      | [] => fail InvalidExpression
                      end
          end
      | TBinary o =>
          match get_binary c o with
          | None => fail InvalidInput
          | Some f => match values with
                      | x :: y :: values' => bind (bf_call f y x) (fun r => rpn_loop rpn' (r :: values') ac)
                      | _ => fail InvalidExpression
                      end
          end
      | TFunction f =>
          match get_function c f with
          | None => fail InvalidInput
          | Some fn =>
              match ac with
              | None => fail InvalidInput
              | Some n => let (values', args) := pop_args n values [] in
                          bind (fn_call fn (rev args)) (fun r => rpn_loop rpn' (r :: values') None)
              end
          end
      | TOpen _ | TClose _ | TUnknown _ | TComma => fail InvalidInput
      end
  end.

(** evaluator.rs 125-270: [rpn_eval]; 113-115: [Evaluator::eval_tokens] *)
Definition eval_tokens (tokens : list tok) : M W V :=
  bind (lift (infix_to_rpn tokens)) (fun rpn =>
  bind (rpn_loop rpn [] None) (fun values =>
  match values with [v] => ret v | _ => fail InvalidExpression end)).

End Evaluator.
Arguments Yard {V}. Arguments y_out {V}. Arguments y_ops {V}. Arguments y_argc {V}. Arguments y_grp {V}.
