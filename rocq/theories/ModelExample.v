(** * A context built by a user: /repo/prexel/examples/logical_ops.rs *)
From Coq Require Import List NArith ZArith Bool String.
From Verif Require Import ModelBase ModelContext ModelText ModelDefault ModelNum ModelOps.
Import ListNotations.

Section Logic.
Context {V W : Type}.
(** logical_ops.rs 54-106 ([bool]) and 108-160 ([u8]) differ in the operations only. *)
Variables (op_and op_or op_xor : V -> V -> V).
Definition AndOperator : bfunc V W := binop "and" VERY_LOW LeftA (fun x y => Ok (op_and x y)).
Definition XorOperator : bfunc V W := binop "xor" LOW LeftA (fun x y => Ok (op_xor x y)).
Definition OrOperator : bfunc V W := binop "or" MEDIUM LeftA (fun x y => Ok (op_or x y)).
(** logical_ops.rs 10-15, 30-35: a failure is an [unwrap] of an error, a panic. *)
Definition logic_context (E : env) (dbg : bool) (yes no : V) : res (dctx V W) :=
  build [add_constant E dbg (lit "true") yes; add_constant E dbg (lit "false") no;
         add_binary_function E dbg AndOperator; add_binary_function E dbg OrOperator; add_binary_function E dbg XorOperator] (with_config config_new).
End Logic.
Definition bool_context {W} E dbg : res (dctx bool W) := logic_context andb orb xorb E dbg true false.
Definition u8_context {W} E dbg : res (dctx Z W) := logic_context Z.land Z.lor Z.lxor E dbg 1%Z 0%Z.
(** The standard library's [FromStr] of [bool]. *)
Definition parse_bool (s : str) : option bool := if str_eqb s (lit "true") then Some true else if str_eqb s (lit "false") then Some false else None.
