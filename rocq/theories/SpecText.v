(** * Specification: strings that differ in ASCII case, calls that change a context *)
From Coq Require Import List NArith Bool.
From Verif Require Import ModelBase ModelContext ModelText ModelDefault.
Import ListNotations.
Local Open Scope N_scope.

(** The same character, or the two cases of one ASCII letter ('A'..'Z' are 65..90, 'a'..'z' 32 further). *)
Definition same_letter (x y : char) : Prop :=
  x = y \/ (65 <= x <= 90 /\ y = x + 32) \/ (65 <= y <= 90 /\ x = y + 32).
(** The strings differ only in the case of ASCII letters. *)
Definition ascii_alike (a b : str) : Prop := Forall2 same_letter a b.

Definition ascii_string (s : str) : Prop := Forall (fun c => c < 128) s.
Definition unicode_string (s : str) : Prop := Forall (fun c => is_scalar c = true) s.

(** A legal name, in words: not blank, no white space, no control character. *)
Definition valid_name (s : str) : Prop :=
  Exists (fun c => is_whitespace c = false) s /\ Forall (fun c => is_whitespace c = false) s /\
  Forall (fun c => is_control c = false) s.

Section Calls.
Context {V W : Type}.
Variable E : env.
Variable dbg : bool.

(** The calls that change a [DefaultContext]. *)
Inductive call :=
| SetVariable (name : str) (v : V)
| AddConstant (name : str) (v : V)
| AddFunction (f : func V W) (name : str)
| AddUnary (f : ufunc V W) (name : str)
| AddBinary (f : bfunc V W) (name : str).

Definition unit_result (p : res unit * dctx V W) : res (option V) * dctx V W :=
  (match fst p with Ok _ => Ok None | Err k => Err k | Panic => Panic end, snd p).
Definition perform (x : call) (d : dctx V W) : res (option V) * dctx V W :=
  match x with
  | SetVariable n v => set_variable E dbg n v d
  | AddConstant n v => unit_result (add_constant E dbg n v d)
  | AddFunction f n => unit_result (add_function_as E dbg f n d)
  | AddUnary f n => unit_result (add_unary_function_as E dbg f n d)
  | AddBinary f n => unit_result (add_binary_function_as E dbg f n d)
  end.

(** [history cf h d]: starting from [DefaultContext::with_config(cf)], the calls and results [h] (latest last) lead to
    the context [d]. A call that panicked may be followed by others (a caller can catch the panic). *)
Inductive history (cf : config) : list (call * res (option V)) -> dctx V W -> Prop :=
| H_new : history cf [] (with_config cf)
| H_call : forall h d x r d', history cf h d -> perform x d = (r, d') -> history cf (h ++ [(x, r)]) d'.

(** The value last given to the variable [x] by a successful call, reading the history as a log. *)
Fixpoint last_set (x : str) (h : list (call * res (option V))) : option V :=
  match h with
  | [] => None
  | (SetVariable n v, Ok _) :: h' =>
      match last_set x h' with Some v' => Some v' | None => if str_eqb n x then Some v else None end
  | _ :: h' => last_set x h'
  end.
(** [n] was successfully added as a constant. *)
Definition constant_added (n : str) (h : list (call * res (option V))) : Prop :=
  exists v o, In (AddConstant n v, Ok o) h.
Definition variable_set (n : str) (h : list (call * res (option V))) : Prop :=
  exists v o, In (SetVariable n v, Ok o) h.

End Calls.
(** The tokens differ only in the ASCII case of the name of a constant, function or operator. *)
Definition respelt {V} (t t' : token V) : Prop :=
  match t, t' with
  | TConstant x, TConstant y | TFunction x, TFunction y | TBinary x, TBinary y | TUnary x, TUnary y => ascii_alike x y
  | _, _ => t = t'
  end.
Arguments call : clear implicits.
