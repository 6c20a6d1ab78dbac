(** * Splitting a string: /repo/prexel/src/utils/splitter.rs *)
From Coq Require Import List NArith Bool Arith String.
From Verif Require Import ModelBase ModelText.
Import ListNotations.
Local Open Scope N_scope.

(** splitter.rs 186-197: a rule is called with the current char and the rest of the input, of which it may consume
    some ([Peekable::next]); the second component is what it leaves. *)
Inductive outcome := Data (s : str) | Continue | Skip.
Definition rule := char -> str -> outcome * str.

(** [while let Some(c) = rest.next_if(p) { temp.push(c) }] *)
Fixpoint take_while (p : char -> bool) (s : str) : str * str :=
  match s with
  | c :: s' => if p c then let (t, r) := take_while p s' in (c :: t, r) else ([], s)
  | [] => ([], [])
  end.

(** splitter.rs 203-205 *)
Definition is_ident_char (c : char) : bool := is_alpha c || is_digit c || (c =? 95).
(** splitter.rs 208 *)
Definition is_ident_start (c : char) : bool := is_alpha c || (c =? 95).
(** splitter.rs 199-221 *)
Definition split_identifier : rule := fun c rest =>
  if is_ident_start c then let (t, r) := take_while is_ident_char rest in (Data (c :: t), r) else (Continue, rest).

(** splitter.rs 236-248: a second decimal point is consumed and ends the number, without being pushed. *)
Fixpoint numeric_tail (has_decimal_point : bool) (s : str) : str * str :=
  match s with
  | c :: s' =>
      if is_digit c then let (t, r) := numeric_tail has_decimal_point s' in (c :: t, r)
      else if c =? 46 then
        if has_decimal_point then ([], s') else let (t, r) := numeric_tail true s' in (c :: t, r)
      else ([], s)
  | [] => ([], [])
  end.
(** splitter.rs 223-255 *)
Definition split_numeric : rule := fun c rest =>
  if is_digit c then let (t, r) := numeric_tail false rest in (Data (c :: t), r) else (Continue, rest).

(** splitter.rs 263-287, 312-315: ~ ` ! @ # $ % ^ & * - + _ : ; double quote, single quote, | \ ? . < > / = , *)
Definition operator_chars : list char :=
  [126; 96; 33; 64; 35; 36; 37; 94; 38; 42; 45; 43; 95; 58; 59; 34; 39; 124; 92; 63; 46; 60; 62; 47; 61; 44].
Definition is_operator_char (c : char) : bool := existsb (N.eqb c) operator_chars.
(** splitter.rs 341-373 *)
Definition split_with_operators (operators : list char) : rule := fun c rest =>
  let valid := fun c => existsb (N.eqb c) operators in
  if valid c then let (t, r) := take_while valid rest in (Data (c :: t), r) else (Continue, rest).
(** splitter.rs 257-305 *)
Definition split_operator : rule := fun c rest =>
  if is_operator_char c then let (t, r) := take_while is_operator_char rest in (Data (c :: t), r) else (Continue, rest).
(** splitter.rs 329-332: the set without an operator. *)
Definition except (operators : list char) (op : char) : list char := filter (fun c => negb (c =? op)) operators.

(** splitter.rs 375-384 *)
Definition skip_whitespace : rule := fun c rest => if is_whitespace c then (Skip, rest) else (Continue, rest).

(** splitter.rs 386-413; 'b' is 98 *)
Definition split_binary : rule := fun c rest =>
  let next_binary := match rest with n :: _ => (n =? 49) || (n =? 48) | [] => false end in
  if (c =? 98) && next_binary then let (t, r) := take_while is_digit rest in (Data (c :: t), r) else (Continue, rest).

(** /repo/eval/src/repl/mod.rs 138-159; '$' is 36 *)
Definition split_repl : rule := fun c rest =>
  if c =? 36 then let (t, r) := take_while is_ident_char rest in (Data (c :: t), r) else (Continue, rest).

(** splitter.rs 89-108: the first rule that does not answer [Continue] decides; without one the char is a token. *)
Fixpoint apply_rules (rules : list rule) (c : char) (rest : str) : option str * str :=
  match rules with
  | [] => (Some [c], rest)
  | r :: rules' =>
      match r c rest with
      | (Data s, rest') => (Some s, rest')
      | (Continue, rest') => apply_rules rules' c rest'
      | (Skip, rest') => (None, rest')
      end
  end.
(** splitter.rs 80-112: the loop. Every turn consumes a char, so the length of the input bounds the number of turns. *)
Fixpoint split_loop (fuel : nat) (rules : list rule) (s : str) : list str :=
  match fuel, s with
  | S fuel', c :: rest =>
      match apply_rules rules c rest with
      | (Some t, rest') => t :: split_loop fuel' rules rest'
      | (None, rest') => split_loop fuel' rules rest'
      end
  | _, _ => []
  end.
Definition split_into_tokens (rules : list rule) (s : str) : list str := split_loop (List.length s) rules s.

(** splitter.rs 155-171: [build] appends [SkipWhitespace] for [Remove]. *)
Inductive whitespace_option := KeepWhitespace | RemoveWhitespace.
Definition build_splitter (rules : list rule) (w : whitespace_option) : list rule :=
  match w with KeepWhitespace => rules | RemoveWhitespace => rules ++ [skip_whitespace] end.
(** splitter.rs 34-41, 115-119 *)
Definition new_splitter (w : whitespace_option) : list rule := build_splitter [split_numeric; split_identifier; split_operator] w.
Definition default_splitter : list rule := new_splitter RemoveWhitespace.
(** splitter.rs 43-66 *)
Definition with_numeric_rule (r : rule) : list rule := build_splitter [r; split_identifier; split_operator] RemoveWhitespace.
Definition with_identifier_rule (r : rule) : list rule :=
  build_splitter [split_numeric; r; split_identifier; split_operator] RemoveWhitespace.
(** /repo/prexel/src/binary/mod.rs 93-101 *)
Definition binary_number_splitter : list rule :=
  build_splitter [split_binary; split_numeric; split_identifier; split_operator] RemoveWhitespace.
(** /repo/eval/src/repl/mod.rs 161-172 *)
Definition repl_splitter (is_binary : bool) : list rule :=
  let rules := [split_repl; split_numeric; split_identifier; split_with_operators (except operator_chars 36)] in
  build_splitter (if is_binary then split_binary :: rules else rules) RemoveWhitespace.

Example split_example : split_into_tokens default_splitter (lit "10.5+-x_1 *(sin 3)") =
  map lit ["10.5"; "+-"; "x_1"; "*"; "("; "sin"; "3"; ")"]%string.
Proof. reflexivity. Qed.
