(** * Number types made with macros: /repo/prexel/src/numeric_traits/mod.rs *)
From Coq Require Import List NArith ZArith Bool.
From Verif Require Import ModelBase ModelFloat ModelNum.

(** The traits that [impl_unchecked_num_traits_with_field!] (4-152) and [impl_checked_num_traits_with_field!] (157-219) implement for
    a struct with one field whose type is [n]. [From] is taken to be the constructor, so that a value is the value of its field.
    Line 26: the body of [Sub] is [Self::from(x + y)]. [is_one] is num_traits' default: equality with [one()]. The text form is the field's (221-273). *)
Definition newtype_num {V} (n : num V) : num V := Num
  (n_zero n) (n_one n) (n_is_zero n) (fun a => match n_cmp n a (n_one n) with Some Eq => true | _ => false end) (n_cmp n)
  (n_add n) (n_add n) (n_mul n) (n_div n) (n_rem n) (n_neg n)
  (n_cadd n) (n_csub n) (n_cmul n) (n_cdiv n) (n_crem n) (n_cneg n)
  (n_to_f64 n) (n_from_f64 n) (n_from_usize n) (n_fuel n).
