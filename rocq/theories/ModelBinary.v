(** * Binary numbers: /repo/prexel/src/binary/mod.rs *)
From Coq Require Import List NArith ZArith Bool String.
From Verif Require Import ModelBase ModelContext ModelText ModelDefault ModelNum ModelOps ModelParse.
Import ListNotations.
Local Open Scope Z_scope.

(** binary/mod.rs 11-12: [Binary(i128)] is its integer. *)

(** binary/mod.rs 32-42; 'b' is 98. *)
Definition parse_binary (s : str) : option Z :=
  match s with
  | 98%N :: stripped => from_str_radix i128 2 stripped
  | _ => parse_int i128 s
  end.

(** binary/mod.rs 44-48: [{:b}] writes the two's complement bits without leading zeros. *)
Fixpoint bits_of (p : positive) : str :=
  match p with
  | xH => [49%N]
  | xO p' => bits_of p' ++ [48%N]
  | xI p' => bits_of p' ++ [49%N]
  end.
Definition show_binary (z : Z) : str :=
  match z mod 2 ^ 128 with Zpos p => bits_of p | _ => [48%N] end.

Section Binary.
Context {W : Type}.
Variable dbg : bool.

Definition bin2 (name : string) (aliases : list string) (p : N) (f : Z -> Z -> res Z) : bfunc Z W :=
  BFunc (lit name) (map lit aliases) p LeftA (fun x y => lift (f x y)).
Definition truth (b : bool) : res Z := Ok (if b then 1 else 0).
(** The shift operators of [i128]: an amount outside 0..128 panics with overflow checks, and is reduced modulo 128 without. *)
Definition shift (f : Z -> Z) (amount : Z) : res Z :=
  if (0 <=? amount) && (amount <? 128) then Ok (f amount)
  else if dbg then Panic else Ok (f (amount mod 128)).

(** binary/mod.rs 107-128 *) Definition b_not : ufunc Z W := UFunc (lit "~") [lit "not"] Prefix (fun x => ret (Z.lnot x)).
(** binary/mod.rs 130-155 *) Definition b_and := bin2 "&" ["and"]%string 11 (fun x y => Ok (Z.land x y)).
(** binary/mod.rs 157-182 *) Definition b_or := bin2 "|" ["or"]%string 13 (fun x y => Ok (Z.lor x y)).
(** binary/mod.rs 184-209 *) Definition b_xor := bin2 "^" ["xor"]%string 12 (fun x y => Ok (Z.lxor x y)).
(** binary/mod.rs 211-237 *) Definition b_eq := bin2 "==" ["eq"; "equal"]%string 10 (fun x y => truth (x =? y)).
(** binary/mod.rs 239-265 *) Definition b_ne := bin2 "!=" ["ne"; "no_equal"]%string 10 (fun x y => truth (negb (x =? y))).
(** binary/mod.rs 267-293 *) Definition b_gt := bin2 ">" ["gt"]%string 9 (fun x y => truth (y <? x)).
(** binary/mod.rs 295-321 *) Definition b_lt := bin2 "<" ["lt"]%string 9 (fun x y => truth (x <? y)).
(** binary/mod.rs 323-349 *) Definition b_gte := bin2 ">=" ["gte"]%string 9 (fun x y => truth (y <=? x)).
(** binary/mod.rs 351-377 *) Definition b_lte := bin2 "<=" ["lte"]%string 9 (fun x y => truth (x <=? y)).
(** binary/mod.rs 379-404 *) Definition b_shr := bin2 ">>" ["shr"]%string 7 (fun x y => shift (Z.shiftr x) y).
(** binary/mod.rs 406-431: the bits shifted out are lost. *)
Definition b_shl := bin2 "<<" ["shl"]%string 7 (fun x y => shift (fun k => wrap i128 (Z.shiftl x k)) y).

(** binary/mod.rs 50-74: [with_config_binary]; [new_binary] is this with [Config::new()]. *)
Definition binary_context (E : env) (cf : config) : res (dctx Z W) :=
  build ([add_unary_function E dbg b_not] ++
         map (add_binary_function E dbg) [b_and; b_or; b_xor; b_eq; b_ne; b_gt; b_lt; b_gte; b_lte; b_shr; b_shl])
        (with_config cf).
End Binary.
