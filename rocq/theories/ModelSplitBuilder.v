(** * Building splitters: /repo/prexel/src/utils/splitter.rs *)
From Coq Require Import List NArith Bool Arith String.
From Verif Require Import ModelBase ModelText ModelSplit.
Import ListNotations.

(** splitter.rs 122-125 *)
Record splitter_builder := SplitterBuilder { b_rules : list rule; b_white : option whitespace_option }.
(** splitter.rs 128-133, 174-178 *)
Definition b_new : splitter_builder := SplitterBuilder [] None.
(** splitter.rs 143-149: [Vec::push] *)
Definition b_rule (r : rule) (b : splitter_builder) : splitter_builder := SplitterBuilder (b_rules b ++ [r]) (b_white b).
(** splitter.rs 135-141: [Vec::insert], which panics if the index is beyond the end *)
Definition b_insert_rule (i : nat) (r : rule) (b : splitter_builder) : res splitter_builder :=
  if (i <=? List.length (b_rules b))%nat then Ok (SplitterBuilder (firstn i (b_rules b) ++ r :: skipn i (b_rules b)) (b_white b)) else Panic.
(** splitter.rs 151-154 *)
Definition b_whitespace (w : whitespace_option) (b : splitter_builder) : splitter_builder := SplitterBuilder (b_rules b) (Some w).
(** splitter.rs 156-172: white space is kept unless told otherwise *)
Definition b_build (b : splitter_builder) : list rule :=
  build_splitter (b_rules b) (match b_white b with Some w => w | None => KeepWhitespace end).

(** splitter.rs 307-339: a [HashSet] of characters, as a list *)
Definition o_new : list char := operator_chars.
Definition o_empty : list char := [].
Definition o_add_operator (c : char) (ops : list char) : list char := if existsb (N.eqb c) ops then ops else c :: ops.
Definition o_except (c : char) (ops : list char) : list char := except ops c.
(** splitter.rs 334-373: the rule for these operators *)
Definition o_build (ops : list char) : rule := split_with_operators ops.
