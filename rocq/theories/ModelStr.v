(** * String helpers: /repo/prexel/src/utils/extensions/str_ext.rs *)
From Coq Require Import List NArith Bool.
From Verif Require Import ModelBase ModelText.
Import ListNotations.

Section Str.
(** [char::is_alphanumeric] of the non-ASCII characters (Unicode's table) is not fixed, except that white space is not
    alphanumeric. *)
Variable ualnum : char -> bool.
Definition is_alphanumeric (c : char) : bool :=
  if is_ascii c then is_alphanumeric_ascii c else negb (is_whitespace c) && ualnum c.

(** str_ext.rs 26-29 *)
Definition eq_char (s : str) (ch : char) : bool :=
  match s with c :: _ => char_eqb c ch | [] => false end && Nat.eqb (length s) 1.

(** str_ext.rs 32-40 *)
Definition single_char (s : str) : option char :=
  if negb (Nat.eqb (length s) 1) then None else hd_error s.

(** str_ext.rs 42-57: the loop; [done] is [is_uppercase]. *)
Fixpoint sentence_loop (done : bool) (s : str) : str :=
  match s with
  | [] => []
  | c :: s' =>
      if negb done && is_alphanumeric c then to_ascii_uppercase c :: sentence_loop true s'
      else to_ascii_lowercase c :: sentence_loop done s'
  end.
Definition to_sentence_case (s : str) : str := sentence_loop false s.

(** str_ext.rs 59-78: the loop; [next] is [next_uppercase]. *)
Fixpoint capital_loop (next : bool) (s : str) : str :=
  match s with
  | [] => []
  | c :: s' =>
      if next && is_alphanumeric c then to_ascii_uppercase c :: capital_loop false s'
      else if is_whitespace c then c :: capital_loop true s'
      else to_ascii_lowercase c :: capital_loop next s'
  end.
Definition to_capital_case (s : str) : str := capital_loop true s.

End Str.
