(** * The functions of the contexts over machine numbers, in words

    Vocabulary for C65 and C66: how a platform function ([f64::sin], [f64::exp], ...) becomes the function of a context. *)
From Coq Require Import List ZArith QArith Qabs String.
From Coq Require Import Floats.SpecFloat.
From Verif Require Import ModelBase ModelFloat ModelNum SpecText SpecOps SpecDecimal SpecDouble.
Import ListNotations.
Local Open Scope Z_scope.

(** The double nearest to 10^-10. *)
Definition tolerance : Q := dyadic 7737125245533627 (-86).

Definition negative (x : f64) : bool :=
  match x with S754_zero s | S754_infinity s | S754_finite s _ _ => s | S754_nan => false end.

Definition finite (x : f64) : bool := match x with S754_zero _ | S754_finite _ _ _ => true | _ => false end.

(** [y] is [x], or the integer within 1e-10 of [x] if there is one (zero keeps the sign of [x]). *)
Definition snapped (x y : f64) : Prop :=
  (finite x = false -> y = x) /\
  (forall q, stands_for x q ->
     (forall k, (Qabs (q - inject_Z k) < tolerance)%Q -> stands_for y (inject_Z k) /\ negative y = negative x) /\
     ((forall k, (tolerance <= Qabs (q - inject_Z k))%Q) -> y = x)).

(** 1 / x, as the processor computes it *)
Definition reciprocal (x : f64) : f64 := f_div f_one x.

(** The ways in which a platform function becomes a function of a context. *)
Inductive form :=
| Of_degrees (m : string)              (* sin, cos, tan: convert the argument to radians, apply, snap *)
| Of_degrees_reciprocal (m : string)   (* csc, sec, cot: the same, then the reciprocal *)
| To_degrees (m : string)              (* asin, ...: apply, convert to degrees, snap *)
| To_degrees_of_reciprocal (m : string)(* acsc, ...: the same, of the reciprocal of the argument *)
| Of_snapped (f : libm -> f64 -> f64)  (* sqrt, ln, ...: snap the argument, apply *)
| Of_snapped_reciprocal (m : string).  (* csch, ...: the same, then the reciprocal *)

Definition platform (m : string) : libm -> f64 -> f64 := fun L => method1 L (lit m).

Definition finite_or_nan (v : f64) : res f64 := if finite v then Ok v else Err NAN.

(** [computes L fm x r]: the function of form [fm], applied to [x], gives [r]. *)
Definition computes (L : libm) (fm : form) (x : f64) (r : res f64) : Prop :=
  match fm with
  | Of_degrees m => exists s, snapped (platform m L (platform "to_radians" L x)) s /\ r = finite_or_nan s
  | Of_degrees_reciprocal m => exists s, snapped (platform m L (platform "to_radians" L x)) s /\ r = finite_or_nan (reciprocal s)
  | To_degrees m => exists s, snapped (platform "to_degrees" L (platform m L x)) s /\ r = finite_or_nan s
  | To_degrees_of_reciprocal m => exists s, snapped (platform "to_degrees" L (platform m L (reciprocal x))) s /\ r = finite_or_nan s
  | Of_snapped f => if finite x then exists s, snapped x s /\ r = Ok (f L s) else r = Err NAN
  | Of_snapped_reciprocal m => if finite x then exists s, snapped x s /\ r = Ok (reciprocal (platform m L s)) else r = Err NAN
  end.

(** The functions of one argument of every default context. *)
Definition function_table : list (string * form) :=
  [("sin", Of_degrees "sin"); ("cos", Of_degrees "cos"); ("tan", Of_degrees "tan");
   ("csc", Of_degrees_reciprocal "sin"); ("sec", Of_degrees_reciprocal "cos"); ("cot", Of_degrees_reciprocal "tan");
   ("asin", To_degrees "asin"); ("acos", To_degrees "acos");
   ("acsc", To_degrees_of_reciprocal "asin"); ("asec", To_degrees_of_reciprocal "acos"); ("acot", To_degrees_of_reciprocal "atan");
   ("sinh", Of_snapped (platform "sinh")); ("cosh", Of_snapped (platform "cosh")); ("tanh", Of_snapped (platform "tanh"));
   ("csch", Of_snapped_reciprocal "sinh"); ("sech", Of_snapped_reciprocal "cosh"); ("coth", Of_snapped_reciprocal "tanh");
   ("asinh", To_degrees "asinh"); ("acosh", To_degrees "acosh"); ("atanh", To_degrees "atanh");
   ("acsch", To_degrees_of_reciprocal "asinh"); ("asech", To_degrees_of_reciprocal "acosh"); ("acoth", To_degrees_of_reciprocal "atanh");
   ("sqrt", Of_snapped (fun _ => f_sqrt)); ("ln", Of_snapped (platform "ln")); ("exp", Of_snapped (platform "exp"));
   ("to_radians", Of_snapped (platform "to_radians")); ("to_degrees", Of_snapped (platform "to_degrees"))]%string.

(** What a machine integer type makes of the result: its integer part, if that is in range. *)
Definition as_integer (t : ModelNum.ity) (r : res f64) (z : res Z) : Prop :=
  match r with
  | Ok v => (forall q, stands_for v q -> fits t (truncated q) -> z = Ok (truncated q)) /\
            (forall q, stands_for v q -> ~ fits t (truncated q) -> z = Err Overflow) /\
            (finite v = false -> z = Err Overflow)
  | Err k => z = Err k
  | Panic => z = Panic
  end.

(** ** Rounding *)
Definition is_floor (q : Q) (k : Z) : Prop := (inject_Z k <= q < inject_Z (k + 1))%Q.
Definition is_ceiling (q : Q) (k : Z) : Prop := (inject_Z (k - 1) < q <= inject_Z k)%Q.
(** the nearest integer, and of two equally near ones the one further from 0 *)
Definition is_rounded (q : Q) (k : Z) : Prop :=
  (Qabs (q - inject_Z k) <= 1 # 2)%Q /\ ((Qabs (q - inject_Z k) == 1 # 2)%Q -> (Qabs q < Qabs (inject_Z k))%Q).
