(** * Characters, UTF-8, comparison ignoring case, names *)
From Coq Require Import List NArith Bool.
From Verif Require Import ModelBase ModelContext.
Import ListNotations.
Local Open Scope N_scope.

Definition between (lo hi c : N) : bool := (lo <=? c) && (c <=? hi).

(** The predicates of the standard library's [char] that the code uses. [is_whitespace] is Unicode's White_Space,
    [is_control] the category Cc; both tables are complete. *)
Definition is_ascii (c : char) : bool := c <? 128.
Definition is_digit (c : char) : bool := between 48 57 c.
Definition is_upper (c : char) : bool := between 65 90 c.
Definition is_lower (c : char) : bool := between 97 122 c.
Definition is_alpha (c : char) : bool := is_upper c || is_lower c.
Definition is_alphanumeric_ascii (c : char) : bool := is_alpha c || is_digit c.
Definition is_ascii_punctuation (c : char) : bool :=
  between 33 47 c || between 58 64 c || between 91 96 c || between 123 126 c.
Definition is_whitespace (c : char) : bool :=
  between 9 13 c || (c =? 32) || (c =? 133) || (c =? 160) || (c =? 5760) || between 8192 8202 c
  || (c =? 8232) || (c =? 8233) || (c =? 8239) || (c =? 8287) || (c =? 12288).
Definition is_control (c : char) : bool := between 0 31 c || between 127 159 c.
(** A Unicode scalar value. *)
Definition is_scalar (c : char) : bool := (c <? 55296) || between 57344 1114111 c.

Definition to_ascii_lowercase (c : char) : char := if is_upper c then c + 32 else c.
Definition to_ascii_uppercase (c : char) : char := if is_lower c then c - 32 else c.

(** [str::trim]: leading and trailing white space removed. *)
Fixpoint trim_start (s : str) : str :=
  match s with c :: s' => if is_whitespace c then trim_start s' else s | [] => [] end.
Definition trim (s : str) : str := rev (trim_start (rev (trim_start s))).

(** The UTF-8 encoding of a scalar value, and of a string. *)
Definition utf8_char (c : char) : list N :=
  if c <? 128 then [c]
  else if c <? 2048 then [192 + c / 64; 128 + c mod 64]
  else if c <? 65536 then [224 + c / 4096; 128 + (c / 64) mod 64; 128 + c mod 64]
  else [240 + c / 262144; 128 + (c / 4096) mod 64; 128 + (c / 64) mod 64; 128 + c mod 64].
Definition utf8 (s : str) : list N := concat (map utf8_char s).

(** [str::len] *)
Definition byte_len (s : str) : nat := length (utf8 s).

(** What the model does not fix: the lower case of the non-ASCII characters ([ulower], Unicode's table), and
    whether a hash map happens to compare a looked-up key with a stored key that hashes differently ([probe], a
    function of the bytes the two keys feed to the hasher: two hashes may agree in the bits that the table looks at). *)
Record env := Env { ulower : char -> str; probe : list N -> list N -> bool }.

Section IgnoreCase.
Variable E : env.

(** [char::to_lowercase] *)
Definition to_lowercase (c : char) : str := if is_ascii c then [to_ascii_lowercase c] else ulower E c.

(** [Iterator::partial_cmp] of two sequences of chars: lexicographic. *)
Fixpoint cmp_chars (a b : str) : comparison :=
  match a, b with
  | [], [] => Eq
  | [], _ => Lt
  | _, [] => Gt
  | x :: a', y :: b' => match x ?= y with Eq => cmp_chars a' b' | r => r end
  end.

(** /repo/prexel/src/utils/ignore_case_str.rs 104-136 ([partial_cmp_by]) with the comparison of
    ignore_case_string.rs 83-86 *)
Fixpoint cmp_ignore_case (a b : str) : comparison :=
  match a, b with
  | [], [] => Eq
  | [], _ => Lt
  | _, [] => Gt
  | x :: a', y :: b' =>
      match cmp_chars (to_lowercase x) (to_lowercase y) with Eq => cmp_ignore_case a' b' | r => r end
  end.

(** ignore_case_string.rs 67-72; ignore_case_str.rs [eq_ignore_case] *)
Definition eq_ignore_case (a b : str) : bool := match cmp_ignore_case a b with Eq => true | _ => false end.

(** ignore_case_string.rs 89-96: the bytes fed to the hasher. *)
Definition hash_input (a : str) : list N := map to_ascii_lowercase (utf8 a).

(** Whether a hash map finds the key [k] stored when [q] is looked up: it compares keys whose hashes agree. *)
Definition key_match (q k : str) : bool := (str_eqb (hash_input q) (hash_input k) || probe E (hash_input q) (hash_input k)) && eq_ignore_case q k.

End IgnoreCase.

(** A map as the list of its entries. *)
Definition mget {A} (eqk : str -> str -> bool) (m : list (str * A)) (q : str) : option A :=
  match find (fun p => eqk q (fst p)) m with Some (_, v) => Some v | None => None end.
(** [HashMap::insert]: a matching entry keeps its key and gets the new value. *)
Fixpoint mput {A} (eqk : str -> str -> bool) (m : list (str * A)) (q : str) (v : A) : list (str * A) :=
  match m with
  | [] => [(q, v)]
  | (k, v0) :: m' => if eqk q k then (k, v) :: m' else (k, v0) :: mput eqk m' q v
  end.

(** /repo/prexel/src/context.rs 749-777: [check_token_name] *)
Definition check_token_name (name : str) : res unit :=
  match trim name with
  | [] => Err Empty
  | _ =>
      if existsb is_whitespace name then Err InvalidInput
      else if existsb is_control name then Err InvalidInput
      else Ok tt
  end.
