(** * Specification: what the settings of a configuration are *)
From Coq Require Import List NArith Bool.
From Verif Require Import ModelBase ModelContext.
Import ListNotations.

(** One call of a builder method of [Config], written by a user after [Config::new()] or [Config::default()]. *)
Inductive setting := ImplicitMul (b : bool) | ComplexNumber (b : bool) | CustomCall (b : bool) | Group (g : grouping).

(** The value last given by a list of choices; [false] if there is none. *)
Fixpoint last_given (l : list (option bool)) : bool :=
  match l with
  | [] => false
  | o :: l' => if existsb is_some l' then last_given l' else match o with Some b => b | None => false end
  end.
Definition implicit_choice (s : setting) : option bool := match s with ImplicitMul b => Some b | _ => None end.
Definition complex_choice (s : setting) : option bool := match s with ComplexNumber b => Some b | _ => None end.
Definition custom_choice (s : setting) : option bool := match s with CustomCall b => Some b | _ => None end.

(** The context that differs from [c] in nothing but its configuration, which is [cf]. *)
Definition configured {V W} (cf : config) (c : ctx V W) : ctx V W :=
  Ctx cf (get_variable c) (get_constant c) (get_function c) (get_unary c) (get_binary c).

(** Every function name is followed by the opening parenthesis. *)
Fixpoint parenthesised {V} (toks : list (token V)) : Prop :=
  match toks with
  | [] => True
  | TFunction _ :: rest => (exists rest', rest = TOpen 40%N :: rest') /\ parenthesised rest
  | _ :: rest => parenthesised rest
  end.
