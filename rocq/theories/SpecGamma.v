(** * Lanczos' formula, as printed in the source

    The numbers are those written in utils/gamma.rs 8-25; the operations are those of the real numbers. *)
From Coq Require Import List ZArith QArith Qreals Reals String.
From Verif Require Import ModelBase ModelFloat SpecDouble.
Import ListNotations.

Definition lanczos_first : Q := 9999999999999971 # 10000000000000000.
Definition lanczos_rest : list Q :=
  [5715623566586292 # 100000000000000; -5959796035547549 # 100000000000000; 14136097974741746 # 1000000000000000; -4919138160976202 # 10000000000000000;
   3399464998481189 # 100000000000000000000; 4652362892704858 # 100000000000000000000; -9837447530487956 # 100000000000000000000; 1580887032249125 # 10000000000000000000;
   -21026444172410488 # 100000000000000000000; 21743961811521265 # 100000000000000000000; -1643181065367639 # 10000000000000000000; 8441822398385275 # 100000000000000000000;
   -26190838401581408 # 1000000000000000000000; 36899182659531625 # 10000000000000000000000]%Q.
(** [c1 / (q + n) + c2 / (q + n + 1) + ...] *)
Fixpoint fractions (q : Q) (n : Z) (cs : list Q) : Q :=
  match cs with [] => 0 | c :: cs' => c / (q + inject_Z n) + fractions q (n + 1) cs' end.
Definition lanczos_factor (q : Q) : Q := lanczos_first + fractions q 1 lanczos_rest.
(** The formula for the factorial of [q], that is gamma (q + 1). *)
Definition lanczos_formula (q : Q) : R :=
  let t := (Q2R q + 47421875 / 10000000 + / 2)%R in
  (sqrt (2 * PI) * Rpower t (Q2R q + / 2) * exp (- t) * Q2R (lanczos_factor q))%R.

(** The library's power and exponential have a relative error of at most 2^-50, on the arguments the formula needs. *)
Definition accurate_power (L : libm) : Prop := forall x y a b, stands_for x a -> stands_for y b -> (1 <= a <= 16)%Q -> (0 <= b <= 2)%Q ->
  exists p, stands_for (powf L x y) p /\ (Rabs (Q2R p - Rpower (Q2R a) (Q2R b)) <= / 2 ^ 50 * Rpower (Q2R a) (Q2R b))%R.
Definition accurate_exp (L : libm) : Prop := forall x a, stands_for x a -> (-16 <= a <= 0)%Q ->
  exists p, stands_for (method1 L (lit "exp") x) p /\ (Rabs (Q2R p - exp (Q2R a)) <= / 2 ^ 50 * exp (Q2R a))%R.
(** [q (q - 1) ... (q - k + 1)] *)
Fixpoint falling (q : Q) (k : nat) : Q := match k with 0%nat => 1 | S j => q * falling (q - 1) j end.
