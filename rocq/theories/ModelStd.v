(** * The default checked context over [i64], for examples

    Nothing here models more code: it instantiates [checked_context] (context.rs 378-437) with the number type [i64], a
    debug build, and a placeholder for the platform's mathematical functions (which no example calls). *)
From Coq Require Import List NArith ZArith Bool String.
From Verif Require Import ModelBase ModelContext ModelText ModelDefault ModelFloat ModelNum ModelOps.
Import ListNotations.

Definition no_libm : libm := Libm (fun _ x => x) (fun x _ => x) (fun x _ => x) (fun x _ => x).
Definition no_random (w : unit) : f64 * unit := (f_zero, w).
(** Lower case of some non-ASCII characters: Latin-1, Greek, Kelvin sign. *)
Definition some_ulower (c : char) : str :=
  if (between 192 222 c && negb (c =? 215))%N then [c + 32]%N
  else if (between 913 937 c)%N then [c + 32]%N
  else if (c =? 8490)%N then [107%N]
  else [c].
Definition std_env : env := Env some_ulower (fun _ _ => false).

Definition unres {V W} (r : res (dctx V W)) (cf : config) : dctx V W := match r with Ok d => d | _ => with_config cf end.

(** [DefaultContext::<i64>::new_checked()], and with implicit multiplication or custom calls. *)
Definition std_build (cf : config) : res (dctx Z unit) :=
  checked_context (int_num i64 true) no_libm no_random true std_env true cf.
Definition std (cf : config) : dctx Z unit := unres (std_build cf) cf.
Definition std_ctx (cf : config) : ctx Z unit := to_ctx std_env (std cf).
Definition plain_config : config := config_new.
Definition implicit_config : config := config_with_implicit_mul config_new true.
Definition custom_config : config := config_with_custom_function_call config_new true.

(** The constructors do not panic. *)
Example std_build_ok : forall b1 b2 b3 : bool, match std_build (Config b1 b2 b3 []) with Ok _ => True | _ => False end.
Proof. intros. vm_compute. exact I. Qed.
