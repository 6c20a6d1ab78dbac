(** * The built-in operators and functions, and the default contexts *)
From Coq Require Import List NArith ZArith Bool String.
From Coq Require Import Floats.SpecFloat.
From Verif Require Import ModelBase ModelContext ModelText ModelDefault ModelFloat ModelGamma ModelNum.
Import ListNotations.

Section Ops.
Context {V W : Type}.
Variable n : num V.
Variable L : libm.
(** [rand::random::<f64>()] *)
Variable random : W -> f64 * W.
(** The cargo feature "docs" (on by default) is compiled in. *)
Variable docs : bool.

Definition or_overflow (o : option V) : res V := match o with Some v => Ok v | None => Err Overflow end.

(** /repo/prexel/src/function.rs 105-120 *)
Definition VERY_LOW : N := 0. Definition LOW : N := 1. Definition MEDIUM : N := 2. Definition HIGH : N := 3.
Definition VERY_HIGH : N := 4.

Definition binop (name : string) (p : N) (a : associativity) (f : V -> V -> res V) : bfunc V W :=
  BFunc (lit name) [] p a (fun x y => lift (f x y)).
Definition unop (name : string) (nt : notation) (f : V -> res V) : ufunc V W :=
  UFunc (lit name) [] nt (fun x => lift (f x)).
Definition fun_ (name : string) (f : list V -> res V) : func V W :=
  Func (lit name) [] (fun args => lift (f args)).

(** ** ops/checked.rs *)
(** checked.rs 12-35 *) Definition c_add := binop "+" LOW LeftA (fun x y => or_overflow (n_cadd n x y)).
(** checked.rs 37-60 *) Definition c_sub := binop "-" LOW LeftA (fun x y => or_overflow (n_csub n x y)).
(** checked.rs 62-85 *) Definition c_mul := binop "*" MEDIUM LeftA (fun x y => or_overflow (n_cmul n x y)).
(** checked.rs 87-114 *)
Definition c_div := binop "/" MEDIUM LeftA
  (fun x y => if n_is_zero n y then Err DivisionByZero else or_overflow (n_cdiv n x y)).
(** checked.rs 116-143 *)
Definition c_mod := binop "mod" MEDIUM LeftA
  (fun x y => if n_is_zero n y then Err DivisionByZero else or_overflow (n_crem n x y)).
(** checked.rs 145-163 *) Definition c_neg := unop "-" Prefix (fun x => or_overflow (n_cneg n x)).
(** checked.rs 165-187 *)
Definition c_abs := fun_ "abs" (fun args =>
  match args with
  | [x] => if n_ge n x (n_zero n) then Ok x else or_overflow (n_cneg n x)
  | _ => Err InvalidArgumentCount
  end).

(** The loop [for cur in args { match result { None => .., Some(n) => .. } }] of checked.rs 198-206, 226-234,
    254-262 and unchecked.rs 193-200, 220-227, 249-256 *)
Fixpoint fold_args (op : V -> V -> res V) (acc : option V) (args : list V) : res (option V) :=
  match args with
  | [] => Ok acc
  | x :: args' =>
      match acc with
      | None => fold_args op (Some x) args'
      | Some a => rbind (op a x) (fun r => fold_args op (Some r) args')
      end
  end.
Definition or_no_args (o : option V) : res V := match o with Some v => Ok v | None => Err InvalidArgumentCount end.

(** checked.rs 189-215 *)
Definition c_sum := fun_ "sum" (fun args =>
  rbind (fold_args (fun a x => or_overflow (n_cadd n a x)) None args) or_no_args).
(** checked.rs 217-243 *)
Definition c_prod := fun_ "product" (fun args =>
  rbind (fold_args (fun a x => or_overflow (n_cmul n a x)) None args) or_no_args).
(** checked.rs 245-280: [from_usize(..).unwrap()] panics when the count does not fit. *)
Definition c_avg := fun_ "avg" (fun args =>
  rbind (fold_args (fun a x => or_overflow (n_cadd n a x)) None args) (fun s =>
  match s with
  | Some v => match n_from_usize n (List.length args) with
              | Some k => or_overflow (n_cdiv n v k)
              | None => Panic
              end
  | None => Err InvalidArgumentCount
  end)).

(** ** ops/unchecked.rs *)
(** unchecked.rs 14-36 *) Definition u_add := binop "+" LOW LeftA (n_add n).
(** unchecked.rs 38-60 *) Definition u_sub := binop "-" LOW LeftA (n_sub n).
(** unchecked.rs 62-84 *) Definition u_mul := binop "*" MEDIUM LeftA (n_mul n).
(** unchecked.rs 86-112 *)
Definition u_div := binop "/" MEDIUM LeftA (fun x y => if n_is_zero n y then Err DivisionByZero else n_div n x y).
(** unchecked.rs 114-140 *)
Definition u_mod := binop "mod" MEDIUM LeftA (fun x y => if n_is_zero n y then Err DivisionByZero else n_rem n x y).
(** unchecked.rs 142-160 *) Definition u_neg := unop "-" Prefix (n_neg n).
(** unchecked.rs 162-182 *)
Definition u_abs := fun_ "abs" (fun args =>
  match args with
  | [x] => if n_ge n x (n_zero n) then Ok x else n_neg n x
  | _ => Err InvalidArgumentCount
  end).
(** unchecked.rs 184-209 *)
Definition u_sum := fun_ "sum" (fun args => rbind (fold_args (n_add n) None args) or_no_args).
(** unchecked.rs 211-236 *)
Definition u_prod := fun_ "product" (fun args => rbind (fold_args (n_mul n) None args) or_no_args).
(** unchecked.rs 238-268 *)
Definition u_avg := fun_ "avg" (fun args =>
  rbind (fold_args (n_add n) None args) (fun s =>
  match s with
  | Some v => match n_from_usize n (List.length args) with Some k => n_div n v k | None => Panic end
  | None => Err InvalidArgumentCount
  end)).

(** ** ops/mod.rs, [math_ops] *)
(** mod.rs 337-355 *) Definition op_plus := unop "+" Prefix (fun x => Ok x).

(** mod.rs 401-404: the loop of [Factorial]. The model gives it [fuel] turns; [None] if it is not over by then. *)
Fixpoint fact_loop (fuel : nat) (total next : V) : option (res (V * V)) :=
  if n_ge n next (n_one n) then
    match fuel with
    | O => None
    | S fuel' =>
        match n_mul n total next with
        | Ok total' =>
            match n_sub n next (n_one n) with
            | Ok next' => fact_loop fuel' total' next'
            | Err k => Some (Err k)
            | Panic => Some Panic
            end
        | Err k => Some (Err k)
        | Panic => Some Panic
        end
    end
  else Some (Ok (total, next)).

Definition or_overflow_f (o : option f64) (f : f64 -> option V) : res V :=
  match o with Some x => or_overflow (f x) | None => Err Overflow end.

(** mod.rs 378-417; [None] only if [fuel] is not enough. *)
Definition factorial (fuel : nat) (value : V) : option (res V) :=
  if n_lt n value (n_zero n) then Some (Err NegativeValue)
  else if n_is_zero n value || n_is_one n value then Some (Ok (n_one n))
  else if n_lt n value (n_one n) then
    Some (or_overflow_f (n_to_f64 n value) (fun x => n_from_f64 n (gamma L (f_add x f_one))))
  else
    match n_sub n value (n_one n) with
    | Ok next0 =>
        match fact_loop fuel value next0 with
        | Some (Ok (total, next)) =>
            Some (if negb (n_is_zero n next) then
              match n_to_f64 n total, n_to_f64 n next with
              | Some t, Some x => or_overflow (n_from_f64 n (f_mul t (gamma L (f_add x f_one))))
              | _, _ => Err Overflow
              end
            else Ok total)
        | Some (Err k) => Some (Err k)
        | Some Panic => Some Panic
        | None => None
        end
    | Err k => Some (Err k)
    | Panic => Some Panic
    end.
(** mod.rs 357-423. A loop that outlasts its fuel is shown as a panic: the call does not return. *)
Definition op_factorial := unop "!" Postfix (fun x => match factorial (n_fuel n x) x with Some r => r | None => Panic end).

(** mod.rs 425-451 *)
Definition op_pow := binop "^" HIGH RightA (fun x y =>
  match n_to_f64 n x, n_to_f64 n y with
  | Some b, Some e => or_overflow (n_from_f64 n (powf L b e))
  | _, _ => Err Overflow
  end).

(** The loops of mod.rs 466-475 and 499-508 *)
Fixpoint best (better : V -> V -> bool) (acc : option V) (args : list V) : option V :=
  match args with
  | [] => acc
  | x :: args' =>
      best better (match acc with None => Some x | Some a => if better x a then Some x else Some a end) args'
  end.
(** mod.rs 453-484 *)
Definition op_max := fun_ "max" (fun args =>
  if (List.length args <=? 1)%nat then Err InvalidArgumentCount else or_no_args (best (n_gt n) None args)).
(** mod.rs 486-517 *)
Definition op_min := fun_ "min" (fun args =>
  if (List.length args <=? 1)%nat then Err InvalidArgumentCount else or_no_args (best (n_lt n) None args)).

(** mod.rs 281-293 *)
Definition try_to_float (x : V) : res f64 :=
  match n_to_f64 n x with
  | Some f => if f_is_nan f || f_is_infinite f then Err NAN else Ok f
  | None => Err Overflow
  end.

(** mod.rs 9-35, 66-96: [forward_func_impl!] *)
Definition forward (name : string) (m : f64 -> f64) : func V W := fun_ name (fun args =>
  match args with
  | [x] => rbind (try_to_float x) (fun f => or_overflow (n_from_f64 n (m (f_approx f))))
  | _ => Err InvalidArgumentCount
  end).
(** mod.rs 37-64, 98-129: [forward_func_inv_impl!] *)
Definition forward_inv (name : string) (m : f64 -> f64) : func V W := forward name (fun f => f_inv (m f)).

(** mod.rs 702-711 etc.: the check of the result *)
Definition finite_result (f : f64) : res V :=
  if f_is_nan f || f_is_infinite f then Err NAN else or_overflow (n_from_f64 n f).
Definition finite_result_opt (o : option f64) : res V :=
  match o with Some f => finite_result f | None => Err Overflow end.

Definition one_arg (f : V -> res V) (args : list V) : res V :=
  match args with [x] => f x | _ => Err InvalidArgumentCount end.
Definition m1 (m : string) : f64 -> f64 := method1 L (lit m).

(** mod.rs 687-716, 752-785: [impl_trig!] *)
Definition trig (m : string) : func V W := fun_ m (one_arg (fun x =>
  finite_result_opt (option_map (fun f => f_approx (m1 m (m1 "to_radians" f))) (n_to_f64 n x)))).
(** mod.rs 718-750, 787-823: [impl_trig_rec!] *)
Definition trig_rec (m name : string) : func V W := fun_ name (one_arg (fun x =>
  finite_result_opt (option_map (fun f => f_inv (f_approx (m1 m (m1 "to_radians" f)))) (n_to_f64 n x)))).
(** mod.rs 131-164, 202-239: [impl_arc_trig!] *)
Definition arc_trig (m : string) : func V W := fun_ m (one_arg (fun x =>
  finite_result_opt (option_map (fun f => f_approx (m1 "to_degrees" (m1 m f))) (n_to_f64 n x)))).
(** mod.rs 166-200, 241-279: [impl_arc_trig_rec!] *)
Definition arc_trig_rec (m name : string) : func V W := fun_ name (one_arg (fun x =>
  finite_result_opt (option_map (fun f => f_approx (m1 "to_degrees" (m1 m (f_inv f)))) (n_to_f64 n x)))).

(** mod.rs 519-573, 661-673. With the feature "docs" the third argument of the macro is the description, so two
    functions are registered under the name of the method instead. *)
Definition op_floor := forward "floor" f_floor.
Definition op_ceil := forward "ceil" f_ceil.
Definition op_trunc := forward (if docs then "trunc" else "truncate") f_trunc.
Definition op_round := forward "round" f_round.
Definition op_sign := forward (if docs then "signum" else "sign") f_signum.
Definition op_sqrt := forward "sqrt" f_sqrt.
Definition op_exp := forward "exp" (m1 "exp").
Definition op_ln := forward "ln" (m1 "ln").
Definition op_to_radians := forward "to_radians" (m1 "to_radians").
Definition op_to_degrees := forward "to_degrees" (m1 "to_degrees").

(** mod.rs 575-617 *)
Definition op_log := fun_ "log" (fun args =>
  match args with
  | [x] => finite_result_opt (option_map (m1 "log10") (n_to_f64 n x))
  | [x; b] => match n_to_f64 n x, n_to_f64 n b with
              | Some v, Some base => finite_result (log_base L v base)
              | _, _ => Err Overflow
              end
  | _ => Err InvalidArgumentCount
  end).

(** mod.rs 619-659 *)
Definition op_rand : func V W := Func (lit "random") [] (fun args =>
  match args with
  | [] => fun w => let (r, w') := random w in (or_overflow (n_from_f64 n r), w')
  | [x] => bind (lift (try_to_float x)) (fun max =>
             if f_sign_negative max then fail NegativeValue
             else fun w => let (r, w') := random w in (or_overflow (n_from_f64 n (f_mul r max)), w'))
  | [x; y] => bind (lift (try_to_float x)) (fun min => bind (lift (try_to_float y)) (fun max =>
             if f_lt max min then fail InvalidInput
             else fun w => let (r, w') := random w in
                  (or_overflow (n_from_f64 n (f_add min (f_mul (f_sub max min) r))), w')))
  | _ => fail InvalidArgumentCount
  end).

(** mod.rs 925-967 *)
Definition op_atan := fun_ "atan" (fun args =>
  match args with
  | [x] => finite_result_opt (option_map (fun f => m1 "to_degrees" (m1 "atan" f)) (n_to_f64 n x))
  | [y; x] => match n_to_f64 n y, n_to_f64 n x with
              | Some fy, Some fx =>
                  if f_is_zero fy && f_is_zero fx then Err NAN
                  else finite_result (m1 "to_degrees" (atan2 L fy fx))
              | _, _ => Err Overflow
              end
  | _ => Err InvalidArgumentCount
  end).

(** ** The default contexts *)
Variable E : env.
Variable dbg : bool.

Notation D := (dctx V W).
(** A sequence of registrations, each followed by [unwrap()]. *)
Fixpoint build (steps : list (D -> res unit * D)) (d : D) : res D :=
  match steps with
  | [] => Ok d
  | s :: steps' => match s d with (Ok _, d') => build steps' d' | (_, _) => Panic end
  end.
Definition F := add_function E dbg (V := V) (W := W).
Definition U := add_unary_function E dbg (V := V) (W := W).
Definition B := add_binary_function E dbg (V := V) (W := W).

(** [N::from_f64(PI).unwrap()], [N::from_f64(E).unwrap()]: the nearest doubles; for PI see ModelFloat. *)
Definition f_E : f64 := f_of 6121026514868073 (-51).
Definition K (name : string) (x : f64) (d : D) : res unit * D :=
  match n_from_f64 n x with Some v => add_constant E dbg (lit name) v d | None => (Panic, d) end.

Definition common_functions : list (D -> res unit * D) :=
  [F (trig "sin"); F (trig "cos"); F (trig "tan"); F (trig_rec "sin" "csc"); F (trig_rec "cos" "sec");
   F (trig_rec "tan" "cot"); F (arc_trig "asin"); F (arc_trig "acos"); F op_atan; F (arc_trig_rec "asin" "acsc");
   F (arc_trig_rec "acos" "asec"); F (arc_trig_rec "atan" "acot"); F (forward "sinh" (m1 "sinh"));
   F (forward "cosh" (m1 "cosh")); F (forward "tanh" (m1 "tanh")); F (forward_inv "csch" (m1 "sinh"));
   F (forward_inv "sech" (m1 "cosh")); F (forward_inv "coth" (m1 "tanh")); F (arc_trig "asinh");
   F (arc_trig "acosh"); F (arc_trig "atanh"); F (arc_trig_rec "asinh" "acsch"); F (arc_trig_rec "acosh" "asech");
   F (arc_trig_rec "atanh" "acoth")].

(** context.rs 381-437: [with_config_checked] *)
Definition checked_context (cf : config) : res D :=
  build ([K "PI" f_PI; K "E" f_E; B c_add; B c_sub; B c_mul; B c_div; B op_pow; B c_mod; U op_plus; U c_neg; U op_factorial;
          F c_sum; F c_prod; F c_avg; F op_max; F op_min; F c_abs; F op_sqrt; F op_ln; F op_log; F op_exp; F op_floor;
          F op_ceil; F op_trunc; F op_round; F op_sign; F op_rand; F op_to_radians; F op_to_degrees] ++ common_functions)
        (with_config cf).

(** context.rs 455-507: [with_config_unchecked]. There is no abs, floor, ceil, trunc, round or sign. *)
Definition unchecked_context (cf : config) : res D :=
  build ([K "PI" f_PI; K "E" f_E; B u_add; B u_sub; B u_mul; B u_div; B op_pow; B u_mod; U op_plus; U u_neg; U op_factorial;
          F u_sum; F u_avg; F u_prod; F op_max; F op_min; F op_sqrt; F op_ln; F op_log; F op_rand; F op_to_radians;
          F op_to_degrees; F op_exp] ++ common_functions)
        (with_config cf).

End Ops.
