(** * The texts of the errors of prexel's own operators and functions

    All errors made in /repo/prexel/src/ops, decimal and complex are made with [Error::from(kind)] and show the kind's text, but for four, which
    are modelled here: ops/mod.rs 642-645 and complex/mod.rs 57, 79-82, 114-117. *)
From Coq Require Import List NArith ZArith Bool Arith String.
From Verif Require Import ModelBase ModelContext ModelEvaluator ModelText ModelFloat ModelNum ModelOps ModelMessage ModelComplex.
Import ListNotations.
Local Open Scope string_scope.
Local Open Scope list_scope.

Definition said_of {A} (r : res A) : told A := match r with Ok a => Says a | Err k => Errs k (kind_text k) | Panic => Dies end.
Definition tbind_w {A B W} (r : told A) (f : A -> W -> told B * W) (w : W) : told B * W :=
  match r with Says a => f a w | Errs k m => (Errs k m, w) | Dies => (Dies, w) end.

Section Voices.
Context {V W : Type}.
Variable random : W -> f64 * W.
(** [Display] of [f64] *)
Variable show_f64 : f64 -> str.

(** ops/mod.rs 619-659 *)
Definition rand_m (n : num V) (args : list V) : W -> told V * W :=
  match args with
  | [] => fun w => let (r, w') := random w in (said_of (or_overflow (n_from_f64 n r)), w')
  | [x] => tbind_w (said_of (try_to_float n x)) (fun max =>
             if f_sign_negative max then fun w => (Errs NegativeValue (kind_text NegativeValue), w)
             else fun w => let (r, w') := random w in (said_of (or_overflow (n_from_f64 n (f_mul r max))), w'))
  | [x; y] => tbind_w (said_of (try_to_float n x)) (fun min => tbind_w (said_of (try_to_float n y)) (fun max =>
             if f_lt max min then fun w => (Errs InvalidInput (lit "Invalid range for `Random`: min > max, " ++ show_f64 min ++ lit " > " ++ show_f64 max), w)
             else fun w => let (r, w') := random w in
                  (said_of (or_overflow (n_from_f64 n (f_add min (f_mul (f_sub max min) r)))), w')))
  | _ => fun w => (Errs InvalidArgumentCount (kind_text InvalidArgumentCount), w)
  end.
(** complex/mod.rs 40-67 *)
Definition complex_log_m (L : clib) (args : list c64) : told c64 :=
  match args with
  | [x] => Says (c_log L x (f_of_Z 10))
  | [x; b] => if negb (f_is_zero (im b)) then Says (c_log L x (re b)) else Errs InvalidInput (lit "Expected decimal base")
  | _ => Errs InvalidArgumentCount (kind_text InvalidArgumentCount)
  end.
(** complex/mod.rs 76-86 *)
Definition try_get_real_m (c : c64) : told f64 :=
  if negb (f_is_zero (im c)) then Errs InvalidInput (lit "Random(...) only accepts real numbers as arguments") else Says (re c).
(** complex/mod.rs 69-132 *)
Definition complex_rand_m (args : list c64) : W -> told c64 * W :=
  match args with
  | [] => fun w => let (r, w1) := random w in let (i, w2) := random w1 in (Says (r, i), w2)
  | [x] => tbind_w (try_get_real_m x) (fun max =>
      if f_sign_negative max then fun w => (Errs NegativeValue (kind_text NegativeValue), w)
      else fun w => let (r, w1) := random w in let (i, w2) := random w1 in (Says (f_mul r max, f_mul i max), w2))
  | [x; y] => tbind_w (try_get_real_m x) (fun min => tbind_w (try_get_real_m y) (fun max =>
      if (f_sign_negative min || f_sign_negative max)%bool then
        fun w => (Errs InvalidInput (lit "Invalid `Random` arguments: `min > max`, " ++ show_f64 min ++ lit " > " ++ show_f64 max), w)
      else fun w => let (r, w1) := random w in let (i, w2) := random w1 in
           (Says (f_add min (f_mul (f_sub max min) r), f_add min (f_mul (f_sub max min) i)), w2)))
  | _ => fun w => (Errs InvalidArgumentCount (kind_text InvalidArgumentCount), w)
  end.
(** The text of an error of the kind [k] from a function that says [r]. *)
Definition text_from {A} (r : told A) (k : errkind) : str := match r, k with Errs InvalidInput m, InvalidInput => m | _, _ => kind_text k end.

Variable E : env.
(** How the type is called and how numbers and unusual characters are printed ([Debug]) is left open. *)
Variable type_name : str.
Variable odd : char -> str.
(** The voice of the checked, unchecked and decimal contexts. *)
Definition number_voice (n : num V) (debug : V -> str) : voice V W :=
  Voice V W type_name debug odd (fun _ _ _ => kind_text) (fun _ _ _ _ => kind_text)
    (fun f args w k => if eq_ignore_case E f (lit "random") then text_from (fst (rand_m n args w)) k else kind_text k).
(** That of the complex context. *)
Definition complex_voice (L : clib) (debug : c64 -> str) : voice c64 W :=
  Voice c64 W type_name debug odd (fun _ _ _ => kind_text) (fun _ _ _ _ => kind_text)
    (fun f args w k => if eq_ignore_case E f (lit "random") then text_from (fst (complex_rand_m args w)) k
                       else if eq_ignore_case E f (lit "log") then text_from (complex_log_m L args) k else kind_text k).
End Voices.
