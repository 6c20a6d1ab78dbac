(** * /repo/prexel/src/utils/gamma.rs: Lanczos' approximation of the gamma function over f64 *)
From Coq Require Import List ZArith Bool String.
From Coq Require Import Floats.SpecFloat.
From Verif Require Import ModelBase ModelFloat.
Import ListNotations.
Local Open Scope Z_scope.

(** gamma.rs 8: 4.742_187_5, exactly a double *)
Definition lanczos_g : f64 := f_of 607 (-7).
(** gamma.rs 9-25: the doubles nearest to the literals (see [PropFactorial.C74_coefficients]) *)
Definition lanczos_p0 : f64 := f_of 4503599627370483 (-52).          (* 0.999_999_999_999_997_1 *)
Definition lanczos_p : list f64 :=
  [f_of 4022012525729383 (-46);      (* 57.156_235_665_862_92 *)
   f_of (-524229203220627) (-43);    (* -59.597_960_355_475_49 *)
   f_of 7957915696439969 (-49);      (* 14.136_097_974_741_746 *)
   f_of (-2215382878875641) (-52);   (* -0.491_913_816_097_620_2 *)
   f_of 2508362432580637 (-66);      (* 0.000_033_994_649_984_811_89 *)
   f_of 6865675809579965 (-67);      (* 0.000_046_523_628_927_048_58 *)
   f_of (-7258755077338295) (-66);   (* -0.000_098_374_475_304_879_56 *)
   f_of 5832443698669165 (-65);      (* 0.000_158_088_703_224_912_5 *)
   f_of (-3878694344285979) (-64);   (* -0.000_210_264_441_724_104_88 *)
   f_of 4011052986856467 (-64);      (* 0.000_217_439_618_115_212_65 *)
   f_of (-94722939311257) (-59);     (* -0.000_164_318_106_536_763_9 *)
   f_of 6228965491948885 (-66);      (* 0.000_084_418_223_983_852_75 *)
   f_of (-3865085544558851) (-67);   (* -0.000_026_190_838_401_581_408 *)
   f_of 544535823239553 (-67)].      (* 0.000_003_689_918_265_953_162_5 *)
Definition f_half : f64 := f_of 1 (-1).

(** gamma.rs 37-39: [factor += coefficient / (x + n)] for n = 1, 2, ..., 14 *)
Fixpoint lanczos_sum (x : f64) (n : Z) (cs : list f64) (factor : f64) : f64 :=
  match cs with
  | [] => factor
  | c :: cs' => lanczos_sum x (n + 1) cs' (f_add factor (f_div c (f_add x (f_of_Z n))))
  end.
(** gamma.rs 33-45 *)
Definition lanczos (L : libm) (x : f64) : f64 :=
  let x := f_sub x f_one in
  let factor := lanczos_sum x 1 lanczos_p lanczos_p0 in
  let t := f_add (f_add x lanczos_g) f_half in
  f_mul (f_mul (f_mul (f_sqrt (f_mul (f_of_Z 2) f_PI)) (powf L t (f_add x f_half))) (method1 L (lit "exp") (f_neg t))) factor.
(** gamma.rs 6-46. The recursive call, for x < 0.5, is with 1 - x, which is not less than 0.5: it takes the other branch. *)
Definition gamma (L : libm) (x : f64) : f64 :=
  if f_lt x f_half then f_div f_PI (f_mul (method1 L (lit "sin") (f_mul f_PI x)) (lanczos L (f_sub f_one x)))
  else lanczos L x.
