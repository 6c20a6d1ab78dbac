(** * Specification: complex numbers *)
From Coq Require Import List ZArith QArith String.
From Verif Require Import ModelBase ModelFloat SpecText SpecExpr SpecDecimal SpecDouble.
Import ListNotations.

(** The pair of doubles [z] is the complex number [a + b i]. *)
Definition is_complex (z : f64 * f64) (a b : Q) : Prop := stands_for (fst z) a /\ stands_for (snd z) b.

(** Numbers whose products and sums are all doubles, so that [(a + b i) (c + d i) = (ac - bd) + (ad + bc) i] can be computed
    without rounding; and likewise [(a + b i) / (c + d i) = ((ac + bd) + (bc - ad) i) / (c^2 + d^2)]. *)
Definition multipliable (a b c d : Q) : Prop :=
  a_double (a * c) /\ a_double (b * d) /\ a_double (a * d) /\ a_double (b * c) /\ a_double (a * c - b * d) /\ a_double (a * d + b * c).
Definition divisible (a b c d : Q) : Prop :=
  a_double (a * c) /\ a_double (b * d) /\ a_double (a * d) /\ a_double (b * c) /\ a_double (a * c + b * d) /\ a_double (b * c - a * d) /\
  a_double (c * c) /\ a_double (d * d) /\ a_double (c * c + d * d) /\
  a_double ((a * c + b * d) / (c * c + d * d)) /\ a_double ((b * c - a * d) / (c * c + d * d)).

(** [s + t i] is [(a + b i) / (c + d i)] with both parts rounded towards zero. *)
Definition whole_quotient (a b c d : Q) (s t : Z) : Prop :=
  s = truncated ((a * c + b * d) / (c * c + d * d)) /\ t = truncated ((b * c - a * d) / (c * c + d * d)).

(** [complex_value e a b]: the expression [e], of numbers, the constant [i], groups, signs and [+ - * /], has the value [a + b i]
    by the rules of complex arithmetic, and no step needs rounding. *)
Inductive complex_value : expr (f64 * f64) -> Q -> Q -> Prop :=
| CV_number : forall z a b, is_complex z a b -> complex_value (ENum z) a b
| CV_i : forall x, ascii_alike x (lit "i") -> complex_value (EConst x) 0 1
| CV_group : forall g e a b, complex_value e a b -> complex_value (EGroup g e) a b
| CV_plus : forall u e a b, ascii_alike u (lit "+") -> complex_value e a b -> complex_value (EPre u e) a b
| CV_minus : forall u e a b, ascii_alike u (lit "-") -> complex_value e a b -> complex_value (EPre u e) (- a) (- b)
| CV_add : forall o l r a b c d, ascii_alike o (lit "+") -> complex_value l a b -> complex_value r c d -> a_double (a + c) -> a_double (b + d) ->
    complex_value (EBin o l r) (a + c) (b + d)
| CV_sub : forall o l r a b c d, ascii_alike o (lit "-") -> complex_value l a b -> complex_value r c d -> a_double (a - c) -> a_double (b - d) ->
    complex_value (EBin o l r) (a - c) (b - d)
| CV_mul : forall o l r a b c d, ascii_alike o (lit "*") -> complex_value l a b -> complex_value r c d -> multipliable a b c d ->
    complex_value (EBin o l r) (a * c - b * d) (a * d + b * c)
| CV_implied : forall l r a b c d, complex_value l a b -> complex_value r c d -> multipliable a b c d ->
    complex_value (EMul l r) (a * c - b * d) (a * d + b * c)
| CV_div : forall o l r a b c d, ascii_alike o (lit "/") -> complex_value l a b -> complex_value r c d -> ~ (c == 0 /\ d == 0)%Q -> divisible a b c d ->
    complex_value (EBin o l r) ((a * c + b * d) / (c * c + d * d)) ((b * c - a * d) / (c * c + d * d))
| CV_mod : forall o l r a b c d s t, ascii_alike o (lit "mod") -> complex_value l a b -> complex_value r c d -> ~ (c == 0 /\ d == 0)%Q -> divisible a b c d ->
    whole_quotient a b c d s t -> a_double (inject_Z s) -> a_double (inject_Z t) -> multipliable c d (inject_Z s) (inject_Z t) ->
    a_double (a - (c * inject_Z s - d * inject_Z t)) -> a_double (b - (c * inject_Z t + d * inject_Z s)) ->
    complex_value (EBin o l r) (a - (c * inject_Z s - d * inject_Z t)) (b - (c * inject_Z t + d * inject_Z s)).

(** The functions of a complex context: how many arguments they take. *)
Definition complex_functions : list string :=
  ["sum"; "avg"; "product"; "sqrt"; "ln"; "log"; "random"; "exp"; "sin"; "cos"; "tan"; "csc"; "sec"; "cot"; "asin"; "acos"; "atan"; "acsc"; "asec"; "acot";
   "sinh"; "cosh"; "tanh"; "csch"; "sech"; "coth"; "asinh"; "acosh"; "atanh"; "acsch"; "asech"; "acoth"]%string.
Definition complex_accepts (name : str) (k : nat) : bool :=
  if existsb (fun s => str_eqb name (lit s)) ["sum"; "product"; "avg"]%string then (1 <=? k)%nat
  else if str_eqb name (lit "log") then ((k =? 1) || (k =? 2))%nat
  else if str_eqb name (lit "random") then (k <=? 2)%nat
  else (k =? 1)%nat.
(** The functions that are reciprocals of others. *)
Definition reciprocals : list (string * string) :=
  [("csc", "sin"); ("sec", "cos"); ("cot", "tan"); ("acsc", "asin"); ("asec", "acos"); ("acot", "atan");
   ("csch", "sinh"); ("sech", "cosh"); ("coth", "tanh"); ("acsch", "asinh"); ("asech", "acosh"); ("acoth", "atanh")]%string.
(** Combining numbers with an operator of a context, from the left: [x o y1 o ... o yn]. *)
Inductive folded {V W} (c : ModelContext.ctx V W) (o : string) : V -> list V -> V -> Prop :=
| f_done : forall x, folded c o x [] x
| f_step : forall x y ys z r, (forall w, apply_binary c (lit o) x y w = (Ok z, w)) -> folded c o z ys r -> folded c o x (y :: ys) r.
