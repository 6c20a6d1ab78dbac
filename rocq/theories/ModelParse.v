(** * Reading machine integers: the standard library's [FromStr] and [from_str_radix]

    Not code of /repo, but what [N::from_str] (/repo/prexel/src/tokenizer.rs 99, 106) is for the integer types, and what
    /repo/prexel/src/binary/mod.rs 26-36 calls. *)
From Coq Require Import List NArith ZArith Bool String.
From Verif Require Import ModelBase ModelText ModelNum.
Import ListNotations.
Local Open Scope Z_scope.

(** [char::to_digit(radix)] for a radix of at most 10 *)
Definition to_digit (radix : Z) (c : char) : option Z :=
  let d := Z.of_N c - 48 in if (0 <=? d) && (d <? radix) then Some d else None.

(** The loop of [from_str_radix]: [result.checked_mul(radix)?.checked_add(digit)?], with [checked_sub] for a negative number. *)
Fixpoint parse_loop (t : ity) (radix : Z) (negative : bool) (acc : Z) (s : str) : option Z :=
  match s with
  | [] => Some acc
  | c :: s' =>
      match checked t (acc * radix) with
      | None => None
      | Some m =>
          match to_digit radix c with
          | None => None
          | Some x =>
              match checked t (if negative then m - x else m + x) with
              | None => None
              | Some r => parse_loop t radix negative r s'
              end
          end
      end
  end.
(** Empty strings, single signs, and a minus sign before an unsigned number are rejected. *)
Definition from_str_radix (t : ity) (radix : Z) (s : str) : option Z :=
  match s with
  | [] => None
  | c :: s' =>
      match s' with
      | [] => if (c =? 43)%N || (c =? 45)%N then None else parse_loop t radix false 0 s
      | _ => if (c =? 43)%N then parse_loop t radix false 0 s'
             else if (c =? 45)%N && signed t then parse_loop t radix true 0 s'
             else parse_loop t radix false 0 s
      end
  end.
Definition parse_int (t : ity) (s : str) : option Z := from_str_radix t 10 s.
