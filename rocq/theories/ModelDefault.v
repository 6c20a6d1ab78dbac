(** * DefaultContext *)
From Coq Require Import List NArith Bool.
From Verif Require Import ModelBase ModelContext ModelText.
Import ListNotations.

Section Default.
Context {V W : Type}.
Variable E : env.
Variable dbg : bool.

(** /repo/prexel/src/context.rs 90-103 *)
Record dctx := DCtx {
  d_vars : list (str * V);
  d_consts : list (str * V);
  d_funs : list (str * func V W);
  d_unary : list (str * ufunc V W);
  d_binary : list (str * bfunc V W);
  d_config : config }.

(** context.rs 122-131; [new] (109-118) is [with_config config_new]. *)
Definition with_config (cf : config) : dctx := DCtx [] [] [] [] [] cf.

Notation km := (key_match E).

(** context.rs 181-182 etc.: only compiled with debug assertions *)
Definition validate (name : str) : res unit := if dbg then check_token_name name else Ok tt.

(** The loop over the aliases and the final insertion, context.rs 189-199, 219-229, 259-269: a taken alias panics,
    leaving what was inserted before. *)
Fixpoint insert_aliases {A} (aliases : list str) (f : A) (m : list (str * A)) : res unit * list (str * A) :=
  match aliases with
  | [] => (Ok tt, m)
  | a :: as' => if is_some (mget km m a) then (Panic, m) else insert_aliases as' f (mput km m a f)
  end.

Definition register {A} (aliases : list str) (f : A) (name : str) (m : list (str * A)) : res unit * list (str * A) :=
  match validate name with
  | Ok _ =>
      if is_some (mget km m name) then (Err Unknown_, m)
      else match insert_aliases aliases f m with
           | (Ok _, m') => (Ok tt, mput km m' name f)
           | (r, m') => (r, m')
           end
  | Err k => (Err k, m)
  | Panic => (Panic, m)
  end.

(** context.rs 178-201 *)
Definition add_function_as (f : func V W) (name : str) (d : dctx) : res unit * dctx :=
  let (r, m) := register (fn_aliases f) f name (d_funs d) in
  (r, DCtx (d_vars d) (d_consts d) m (d_unary d) (d_binary d) (d_config d)).
(** context.rs 208-231 *)
Definition add_unary_function_as (f : ufunc V W) (name : str) (d : dctx) : res unit * dctx :=
  let (r, m) := register (uf_aliases f) f name (d_unary d) in
  (r, DCtx (d_vars d) (d_consts d) (d_funs d) m (d_binary d) (d_config d)).
(** context.rs 247-271 *)
Definition add_binary_function_as (f : bfunc V W) (name : str) (d : dctx) : res unit * dctx :=
  let (r, m) := register (bf_aliases f) f name (d_binary d) in
  (r, DCtx (d_vars d) (d_consts d) (d_funs d) (d_unary d) m (d_config d)).

(** context.rs 287-303 *)
Definition add_function f := add_function_as f (fn_name f).
Definition add_unary_function f := add_unary_function_as f (uf_name f).
Definition add_binary_function f := add_binary_function_as f (bf_name f).

(** context.rs 305-318 *)
Definition add_constant (name : str) (v : V) (d : dctx) : res unit * dctx :=
  match validate name with
  | Ok _ =>
      if existsb (fun p => eq_ignore_case E (fst p) name) (d_vars d) then (Err Unknown_, d)
      else (Ok tt, DCtx (d_vars d) (mput km (d_consts d) name v) (d_funs d) (d_unary d) (d_binary d) (d_config d))
  | Err k => (Err k, d)
  | Panic => (Panic, d)
  end.

(** context.rs 320-335 *)
Definition set_variable (name : str) (v : V) (d : dctx) : res (option V) * dctx :=
  match validate name with
  | Ok _ =>
      if existsb (fun p => eq_ignore_case E (fst p) name) (d_consts d) then (Err Unknown_, d)
      else (Ok (mget str_eqb (d_vars d) name),
            DCtx (mput str_eqb (d_vars d) name v) (d_consts d) (d_funs d) (d_unary d) (d_binary d) (d_config d))
  | Err k => (Err k, d)
  | Panic => (Panic, d)
  end.

(** context.rs 337-360 (and 282-284 for the configuration): what the evaluator sees. *)
Definition to_ctx (d : dctx) : ctx V W :=
  Ctx (d_config d)
      (mget str_eqb (d_vars d))
      (mget km (d_consts d))
      (mget km (d_funs d))
      (mget km (d_unary d))
      (mget km (d_binary d)).

End Default.
Arguments dctx : clear implicits. Arguments DCtx {V W}.
Arguments d_vars {V W}. Arguments d_consts {V W}. Arguments d_funs {V W}. Arguments d_unary {V W}.
Arguments d_binary {V W}. Arguments d_config {V W}. Arguments with_config {V W}.
