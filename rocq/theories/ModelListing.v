(** * What the server lists: names, aliases, descriptions and values *)
From Coq Require Import List NArith Permutation.
From Verif Require Import ModelBase ModelContext ModelText ModelDefault ModelJson.
Import ListNotations.

Section Listing.
Context {V W : Type}.
(** function.rs 19-21, 42-44, 66-68: the [description] of a function, which the records of ModelContext leave out *)
Variable about : func V W -> option str.
Variable about_unary : ufunc V W -> option str.
Variable about_binary : bfunc V W -> option str.
(** [Display] of the number type *)
Variable show : V -> str.

(** A hash map is iterated in any order: the arguments are the tables in that order ([iterated]). No aliases ([None]) and an empty slice are
    both the empty list, as in [unwrap_or_default]. *)
(** /repo/prexel-server/src/services/info.rs 44-57 *)
Definition get_functions (funs : list (str * func V W)) : list fn_info := map (fun p => FnInfo (fst p) (fn_aliases (snd p)) (about (snd p))) funs.
(** info.rs 18-42: the entries of the binary operators, then those of the unary ones *)
Definition get_operators (binary : list (str * bfunc V W)) (unary : list (str * ufunc V W)) : list fn_info :=
  map (fun p => FnInfo (fst p) (bf_aliases (snd p)) (about_binary (snd p))) binary ++
  map (fun p => FnInfo (fst p) (uf_aliases (snd p)) (about_unary (snd p))) unary.
(** info.rs 59-68 *)
Definition get_constants (consts : list (str * V)) : list (str * str) := map (fun p => (fst p, show (snd p))) consts.
End Listing.
(** The entries of a hash map in some order of iteration. *)
Definition iterated {A} (entries map : list A) : Prop := Permutation entries map.
