(** * Lanczos' formula, as printed in the decimal source

    The numbers are those written in decimal/decimal_ext.rs 549-566 (with more digits than those of utils/gamma.rs); the
    operations are those of the real numbers. *)
From Coq Require Import List ZArith QArith Qabs Qreals Reals.
From Verif Require Import ModelDecimal SpecGamma.
Import ListNotations.

Definition decimal_first : Q := 99999999999999709182 # 100000000000000000000.
Definition decimal_rest : list Q :=
  [57156235665862923517 # 1000000000000000000; -59597960355475491248 # 1000000000000000000; 14136097974741747174 # 1000000000000000000;
   -49191381609762019978 # 100000000000000000000; 33994649984811888699 # 1000000000000000000000000; 46523628927048575665 # 1000000000000000000000000;
   -98374475304879564677 # 1000000000000000000000000; 15808870322491248884 # 100000000000000000000000; -21026444172410488319 # 100000000000000000000000;
   2174396181152126432 # 10000000000000000000000; -16431810653676389022 # 100000000000000000000000; 84418223983852743293 # 1000000000000000000000000;
   -2619083840158140867 # 100000000000000000000000; 36899182659531622704 # 10000000000000000000000000]%Q.
Definition decimal_factor (q : Q) : Q := decimal_first + fractions q 1 decimal_rest.
(** The formula for the factorial of [q], that is gamma (q + 1). *)
Definition decimal_formula (q : Q) : R :=
  let t := (Q2R q + 47421875 / 10000000 + / 2)%R in
  (sqrt (2 * PI) * Rpower t (Q2R q + / 2) * exp (- t) * Q2R (decimal_factor q))%R.

(** rust_decimal's [round_dp]: to the nearest number with so many places. *)
Definition rounds_places {D : Type} (L : dlib D) (value : D -> Q) : Prop :=
  forall n x, (n <= 28)%N -> (Qabs (value (d_round_dp L n x) - value x) * inject_Z (10 ^ Z.of_N n) <= 1 # 2)%Q.
