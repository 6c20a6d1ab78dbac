(** * C65, C66: the functions of one argument over [f64] and over machine integers *)
From Coq Require Import List NArith ZArith QArith Qabs Qround Bool Lia Lqa String.
From Coq Require Import Floats.SpecFloat.
From Verif Require Import ModelBase ModelContext ModelText ModelDefault ModelFloat ModelNum ModelOps ModelStd
  SpecText SpecExpr SpecOps SpecDecimal SpecDouble SpecFunctions ProofText ProofDefault ProofBuild ProofCtx ProofOps ProofFloat ProofDouble ProofDouble2 ProofSnap ProofDecimal PropDouble.
Import ListNotations.
Local Open Scope Z_scope.

(** ** What the model computes, form by form *)
Definition core (L : libm) (fm : form) (x : f64) : res f64 :=
  match fm with
  | Of_degrees m => finite_or_nan (f_approx (platform m L (platform "to_radians" L x)))
  | Of_degrees_reciprocal m => finite_or_nan (reciprocal (f_approx (platform m L (platform "to_radians" L x))))
  | To_degrees m => finite_or_nan (f_approx (platform "to_degrees" L (platform m L x)))
  | To_degrees_of_reciprocal m => finite_or_nan (f_approx (platform "to_degrees" L (platform m L (reciprocal x))))
  | Of_snapped f => if finite x then Ok (f L (f_approx x)) else Err NAN
  | Of_snapped_reciprocal m => if finite x then Ok (reciprocal (platform m L (f_approx x))) else Err NAN
  end.
Lemma core_computes : forall L fm x, computes L fm x (core L fm x).
Proof.
  intros L fm x. destruct fm; cbn [computes core]; try (eexists; split; [apply approx_spec|reflexivity]); destruct (finite x); try reflexivity; eexists; (split; [apply approx_spec|reflexivity]).
Qed.

(** The function of the model for each form. *)
Definition of_form {V W} (n : num V) (L : libm) (name : string) (fm : form) : func V W :=
  match fm with
  | Of_degrees m => trig n L m
  | Of_degrees_reciprocal m => trig_rec n L m name
  | To_degrees m => arc_trig n L m
  | To_degrees_of_reciprocal m => arc_trig_rec n L m name
  | Of_snapped f => forward n name (f L)
  | Of_snapped_reciprocal m => forward_inv n name (m1 L m)
  end.
Lemma finite_check : forall V (n : num V) f, finite_result n f = rbind (finite_or_nan f) (fun v => or_overflow (n_from_f64 n v)).
Proof. intros V n f. destruct f; reflexivity. Qed.
Lemma form_call : forall V W (n : num V) L name fm x f (w : W), n_to_f64 n x = Some f ->
  fn_call (of_form n L name fm) [x] w = (rbind (core L fm f) (fun v => or_overflow (n_from_f64 n v)), w).
Proof.
  intros V W n L name fm x f w H. destruct fm; cbn [of_form core trig trig_rec arc_trig arc_trig_rec forward forward_inv fun_ fn_call one_arg];
    unfold lift, try_to_float; rewrite H; cbn [option_map finite_result_opt]; rewrite ?finite_check; try reflexivity.
  - destruct f; reflexivity.
  - destruct f; reflexivity.
Qed.
Lemma table_found : forall V W (n : num V) L (rnd : W -> f64 * W) docs E dbg cf d,
  checked_context n L rnd docs E dbg cf = Ok d \/ unchecked_context n L rnd E dbg cf = Ok d ->
  forall name fm, In (name, fm) function_table -> forall q, ascii_alike q (lit name) -> get_function (to_ctx E d) q = Some (of_form n L name fm).
Proof.
  intros V W n L rnd docs E dbg cf d Hd name fm HIn q Hq.
  assert (X : exists i j, nth_error (checked_funs n L rnd docs) i = Some (of_form n L name fm) /\ nth_error (unchecked_funs n L rnd) j = Some (of_form n L name fm)).
  { unfold function_table in HIn. repeat (destruct HIn as [HIn|HIn]; [injection HIn as <- <-|]); [..|destruct HIn].
    all: cbn [of_form].
    all: match goal with |- exists i j, nth_error _ i = Some ?f /\ _ => idtac end.
    exists 18%nat, 12%nat. split; reflexivity.
    exists 19%nat, 13%nat. split; reflexivity.
    exists 20%nat, 14%nat. split; reflexivity.
    exists 21%nat, 15%nat. split; reflexivity.
    exists 22%nat, 16%nat. split; reflexivity.
    exists 23%nat, 17%nat. split; reflexivity.
    exists 24%nat, 18%nat. split; reflexivity.
    exists 25%nat, 19%nat. split; reflexivity.
    exists 27%nat, 21%nat. split; reflexivity.
    exists 28%nat, 22%nat. split; reflexivity.
    exists 29%nat, 23%nat. split; reflexivity.
    exists 30%nat, 24%nat. split; reflexivity.
    exists 31%nat, 25%nat. split; reflexivity.
    exists 32%nat, 26%nat. split; reflexivity.
    exists 33%nat, 27%nat. split; reflexivity.
    exists 34%nat, 28%nat. split; reflexivity.
    exists 35%nat, 29%nat. split; reflexivity.
    exists 36%nat, 30%nat. split; reflexivity.
    exists 37%nat, 31%nat. split; reflexivity.
    exists 38%nat, 32%nat. split; reflexivity.
    exists 39%nat, 33%nat. split; reflexivity.
    exists 40%nat, 34%nat. split; reflexivity.
    exists 41%nat, 35%nat. split; reflexivity.
    exists 6%nat, 5%nat. split; reflexivity.
    exists 7%nat, 6%nat. split; reflexivity.
    exists 9%nat, 11%nat. split; reflexivity.
    exists 16%nat, 9%nat. split; reflexivity.
    exists 17%nat, 10%nat. split; reflexivity. }
  assert (Nm : fn_name (W := W) (of_form n L name fm) = lit name).
  { clear - HIn. unfold function_table in HIn. repeat (destruct HIn as [HIn|HIn]; [injection HIn as <- <-; reflexivity|]). destruct HIn. }
  destruct X as (i & j & X1 & X2). rewrite <- Nm in Hq. destruct Hd as [Hd|Hd].
  - exact (checked_fun n L rnd docs E dbg cf d i _ q Hd X1 Hq).
  - exact (unchecked_fun n L rnd E dbg cf d j _ q Hd X2 Hq).
Qed.

(** ** C65: the functions over [f64] *)

(** Each of the 28 functions of one argument computes what its row of the table says, for every argument. *)
Theorem C65_functions : forall W fuel L (rnd : W -> f64 * W) docs E dbg cf d, f64_context fuel L rnd docs E dbg cf d ->
  forall name fm, In (name, fm) function_table -> forall q x w, ascii_alike q (lit name) ->
  exists r, computes L fm x r /\ apply_function (to_ctx E d) q [x] w = (r, w).
Proof.
  intros W fuel L rnd docs E dbg cf d Hd name fm HIn q x w Hq. exists (core L fm x). split; [apply core_computes|]. unfold apply_function.
  rewrite (table_found _ _ (f64_num fuel) L rnd docs E dbg cf d Hd name fm HIn q Hq), (form_call _ _ (f64_num fuel) L name fm x x w eq_refl).
  destruct (core L fm x); reflexivity.
Qed.
Print Assumptions C65_functions.

(** The results are determined by the table, whenever the platform's functions give doubles. *)
Definition proper (x : f64) : Prop := finite x = true -> exists q, stands_for x q.
Theorem C65_determined : forall L fm x r1 r2, (forall m y, proper (platform m L y)) -> proper x -> computes L fm x r1 -> computes L fm x r2 -> r1 = r2.
Proof.
  assert (U : forall x y z, proper x -> snapped x y -> snapped x z -> y = z).
  { intros x y z P Y Z. destruct (finite x) eqn:F; [destruct (P F) as (q & H); exact (snapped_unique x y z q H Y Z)|]. rewrite (proj1 Y F), (proj1 Z F). reflexivity. }
  intros L fm x r1 r2 HL Hx H1 H2. destruct fm; cbn [computes] in *.
  1-4: destruct H1 as (s1 & A1 & ->), H2 as (s2 & A2 & ->); rewrite (U _ s1 s2 (HL _ _) A1 A2); reflexivity.
  1-2: destruct (finite x); [|congruence]; destruct H1 as (s1 & A1 & ->), H2 as (s2 & A2 & ->); rewrite (U _ s1 s2 Hx A1 A2); reflexivity.
Qed.
Print Assumptions C65_determined.

(** When the platform's value is within 1e-10 of an integer, the trigonometric functions and their inverses give
    exactly that integer: cos(90) is 0, tan(45) is 1, acos(0) is 90. *)
Theorem C65_exact_at_integers : forall W fuel L (rnd : W -> f64 * W) docs E dbg cf d, f64_context fuel L rnd docs E dbg cf d ->
  forall name m x p k w, stands_for p k ->
  (In (name, Of_degrees m) function_table /\ p = platform m L (platform "to_radians" L x)) \/
  (In (name, To_degrees m) function_table /\ p = platform "to_degrees" L (platform m L x)) \/
  (In (name, To_degrees_of_reciprocal m) function_table /\ p = platform "to_degrees" L (platform m L (reciprocal x))) ->
  forall j, (Qabs (k - inject_Z j) < tolerance)%Q -> exists v, apply_function (to_ctx E d) (lit name) [x] w = (Ok v, w) /\ stands_for v (inject_Z j).
Proof.
  intros W fuel L rnd docs E dbg cf d Hd name m x p k w Hp H j Hj.
  assert (G : exists fm, In (name, fm) function_table /\ forall r, computes L fm x r -> exists s, snapped p s /\ r = finite_or_nan s).
  { destruct H as [[H ->]|[[H ->]|[H ->]]]; eexists; (split; [exact H|]); intros r R; exact R. }
  destruct G as (fm & HIn & G). destruct (C65_functions W fuel L rnd docs E dbg cf d Hd name fm HIn (lit name) x w (alike_refl _)) as (r & R & ->).
  destruct (G r R) as (s & [_ S] & ->). destruct (proj1 (S k Hp) j Hj) as [S1 _]. exists s. split; [|exact S1]. unfold finite_or_nan.
  destruct s; try contradiction; reflexivity.
Qed.
Print Assumptions C65_exact_at_integers.

(** The other functions snap their argument instead, so they do not tell apart arguments near the same integer... *)
Theorem C65_near_an_integer : forall W fuel L (rnd : W -> f64 * W) docs E dbg cf d, f64_context fuel L rnd docs E dbg cf d ->
  forall name fm, In (name, fm) function_table -> (exists f, fm = Of_snapped f) \/ (exists m, fm = Of_snapped_reciprocal m) ->
  forall (x y : f64) p q j w, stands_for x p -> stands_for y q -> (Qabs (p - inject_Z j) < tolerance)%Q -> (Qabs (q - inject_Z j) < tolerance)%Q -> negative x = negative y ->
  apply_function (to_ctx E d) (lit name) [x] w = apply_function (to_ctx E d) (lit name) [y] w.
Proof.
  intros W fuel L rnd docs E dbg cf d Hd name fm HIn Hf x y p q j w Hx Hy Px Py Hs. unfold apply_function.
  rewrite !(table_found _ _ (f64_num fuel) L rnd docs E dbg cf d Hd name fm HIn (lit name) (alike_refl _)). cbv iota beta.
  rewrite (form_call _ _ (f64_num fuel) L name fm x x w eq_refl), (form_call _ _ (f64_num fuel) L name fm y y w eq_refl).
  assert (S : f_approx x = f_approx y).
  { destruct (proj2 (approx_spec x) p Hx) as [A _]. destruct (proj2 (approx_spec y) q Hy) as [B _]. destruct (A j Px) as [A1 A2], (B j Py) as [B1 B2].
    destruct (Z.eq_dec j 0) as [->|N].
    - assert (X : forall v, stands_for v (inject_Z 0) -> exists s, v = S754_zero s).
      { intros v V. destruct (int_is v 0 V) as [E0|[_ E0]]; [lia|exists false; exact E0|exact E0]. }
      destruct (X _ A1) as (s & Es). destruct (X _ B1) as (t & Et). rewrite Es in *. rewrite Et in *. cbn [negative] in A2, B2. rewrite A2, B2, Hs. reflexivity.
    - apply (double_unique _ _ (inject_Z j) A1 B1). change 0%Q with (inject_Z 0). rewrite inject_Z_injective. exact N. }
  assert (F1 : finite x = true) by (destruct x; try contradiction; reflexivity). assert (F2 : finite y = true) by (destruct y; try contradiction; reflexivity).
  destruct Hf as [[f ->]|[m ->]]; cbn [core]; rewrite F1, F2, S; reflexivity.
Qed.
Print Assumptions C65_near_an_integer.

(** ... and the square root of 2^-40 is 0, not 2^-20. *)
Theorem C65_small_arguments_refuted : forall W fuel L (rnd : W -> f64 * W) docs E dbg cf d, f64_context fuel L rnd docs E dbg cf d ->
  exists x, stands_for x (dyadic 1 (-40)) /\ (dyadic 1 (-40) == dyadic 1 (-20) * dyadic 1 (-20))%Q /\ forall w, apply_function (to_ctx E d) (lit "sqrt") [x] w = (Ok f_zero, w).
Proof.
  intros W fuel L rnd docs E dbg cf d Hd. exists (f_of 1 (-40)). split; [|split; [reflexivity|]].
  - apply normalize_double; [reflexivity|]. exists 1, (-40). split; [reflexivity|]. split; [lia|reflexivity].
  - intros w. unfold apply_function. rewrite (f64_fun W fuel L rnd docs E dbg cf d Hd 6 5 (op_sqrt (f64_num fuel)) (lit "sqrt") eq_refl eq_refl (alike_refl _)). reflexivity.
Qed.
Print Assumptions C65_small_arguments_refuted.

(** Reciprocals: csc, sec and cot are the reciprocals of sin, cos and tan, an infinite one being an error; csch, sech and
    coth are the reciprocals of sinh, cosh and tanh, infinite or not; and acsc, asec, acsch, asech, acoth of a number
    are asin, acos, asinh, acosh, atanh of its reciprocal. *)
Theorem C65_reciprocals : forall W fuel L (rnd : W -> f64 * W) docs E dbg cf d, f64_context fuel L rnd docs E dbg cf d ->
  let call f x w := apply_function (to_ctx E d) (lit f) [x] w in
  (forall f g, In (f, g) [("sin", "csc"); ("cos", "sec"); ("tan", "cot")]%string -> forall x v w,
     call f x w = (Ok v, w) -> call g x w = (if finite (reciprocal v) then Ok (reciprocal v) else Err NAN, w)) /\
  (forall f g, In (f, g) [("sinh", "csch"); ("cosh", "sech"); ("tanh", "coth")]%string -> forall x w,
     (forall v, call f x w = (Ok v, w) -> call g x w = (Ok (reciprocal v), w)) /\ (forall k, call f x w = (Err k, w) -> call g x w = (Err k, w))) /\
  (forall f g, In (f, g) [("asin", "acsc"); ("acos", "asec"); ("asinh", "acsch"); ("acosh", "asech"); ("atanh", "acoth")]%string -> forall x w,
     call g x w = call f (reciprocal x) w).
Proof.
  intros W fuel L rnd docs E dbg cf d Hd call.
  assert (C : forall name fm, In (name, fm) function_table -> forall x w, call name x w = (core L fm x, w)).
  { intros name fm HIn x w. unfold call, apply_function. rewrite (table_found _ _ (f64_num fuel) L rnd docs E dbg cf d Hd name fm HIn (lit name) (alike_refl _)).
    rewrite (form_call _ _ (f64_num fuel) L name fm x x w eq_refl). destruct (core L fm x); reflexivity. }
  clearbody call. split; [|split].
  - assert (K : forall m f g, In (f, Of_degrees m) function_table -> In (g, Of_degrees_reciprocal m) function_table -> forall x v w,
      call f x w = (Ok v, w) -> call g x w = (if finite (reciprocal v) then Ok (reciprocal v) else Err NAN, w)).
    { intros m f g Hf Hg x v w. rewrite (C f _ Hf), (C g _ Hg). cbn [core]. unfold finite_or_nan at 1. destruct (finite (f_approx _)); [|discriminate]. intros H. injection H as <-. reflexivity. }
    intros f g HIn. repeat (destruct HIn as [HIn|HIn]; [injection HIn as <- <-|]); [..|destruct HIn];
      [apply (K "sin"%string)|apply (K "cos"%string)|apply (K "tan"%string)]; unfold function_table; repeat first [left; reflexivity|right].
  - assert (K : forall m f g, In (f, Of_snapped (platform m)) function_table -> In (g, Of_snapped_reciprocal m) function_table -> forall x w,
      (forall v, call f x w = (Ok v, w) -> call g x w = (Ok (reciprocal v), w)) /\ (forall k, call f x w = (Err k, w) -> call g x w = (Err k, w))).
    { intros m f g Hf Hg x w. rewrite (C f _ Hf), (C g _ Hg). cbn [core]. destruct (finite x); split; intros v H; try discriminate; injection H as <-; reflexivity. }
    intros f g HIn. repeat (destruct HIn as [HIn|HIn]; [injection HIn as <- <-|]); [..|destruct HIn];
      [apply (K "sinh"%string)|apply (K "cosh"%string)|apply (K "tanh"%string)]; unfold function_table; repeat first [left; reflexivity|right].
  - assert (K : forall m f g, In (f, To_degrees m) function_table -> In (g, To_degrees_of_reciprocal m) function_table -> forall x w,
      call g x w = call f (reciprocal x) w).
    { intros m f g Hf Hg x w. rewrite (C f _ Hf), (C g _ Hg). reflexivity. }
    intros f g HIn. repeat (destruct HIn as [HIn|HIn]; [injection HIn as <- <-|]); [..|destruct HIn];
      [apply (K "asin"%string)|apply (K "acos"%string)|apply (K "asinh"%string)|apply (K "acosh"%string)|apply (K "atanh"%string)]; unfold function_table; repeat first [left; reflexivity|right].
Qed.
Print Assumptions C65_reciprocals.

(** ** Rounding (checked contexts only) *)
Lemma snapped_call : forall W fuel L (rnd : W -> f64 * W) docs E dbg cf d, checked_context (f64_num fuel) L rnd docs E dbg cf = Ok d -> forall i name f x q w,
  nth_error (checked_funs (f64_num fuel) L rnd docs) i = Some (forward (f64_num fuel) name f) -> stands_for x q ->
  apply_function (to_ctx E d) (lit name) [x] w = (Ok (f (f_approx x)), w).
Proof.
  intros W fuel L rnd docs E dbg cf d Hd i name f x q w Hi Hx. unfold apply_function.
  rewrite (checked_fun (f64_num fuel) L rnd docs E dbg cf d i _ (lit name) Hd Hi (alike_refl _)). cbn [forward fun_ fn_call]. unfold lift, try_to_float. cbn [n_to_f64 f64_num].
  destruct (stands_finite _ _ Hx) as [-> ->]. reflexivity.
Qed.

(** floor, ceil, round and trunc give the greatest integer below, the least integer above, the nearest integer (halves
    away from zero) and the integer part, except that a number within 1e-10 of an integer gives that integer; the
    sign is 1 or -1, also for the zeros. *)
Theorem C65_rounding : forall W fuel L (rnd : W -> f64 * W) docs E dbg cf d, checked_context (f64_num fuel) L rnd docs E dbg cf = Ok d ->
  forall (x : f64) q w, stands_for x q ->
  let call f := apply_function (to_ctx E d) (lit f) [x] w in
  (forall k, (Qabs (q - inject_Z k) < tolerance)%Q -> forall f, In f ["floor"; "ceil"; "round"; if docs then "trunc" else "truncate"]%string ->
     exists v, call f = (Ok v, w) /\ stands_for v (inject_Z k)) /\
  ((forall k, (tolerance <= Qabs (q - inject_Z k))%Q) ->
     (exists k v, is_floor q k /\ call "floor"%string = (Ok v, w) /\ stands_for v (inject_Z k)) /\
     (exists k v, is_ceiling q k /\ call "ceil"%string = (Ok v, w) /\ stands_for v (inject_Z k)) /\
     (exists k v, is_rounded q k /\ call "round"%string = (Ok v, w) /\ stands_for v (inject_Z k)) /\
     (exists v, call (if docs then "trunc" else "truncate")%string = (Ok v, w) /\ stands_for v (inject_Z (truncated q)))) /\
  (exists v, call (if docs then "signum" else "sign")%string = (Ok v, w) /\ stands_for v (if negative x then -1 else 1)).
Proof.
  intros W fuel L rnd docs E dbg cf d Hd x q w Hx call.
  assert (C1 : call "floor"%string = (Ok (f_floor (f_approx x)), w)) by exact (snapped_call W fuel L rnd docs E dbg cf d Hd 10 "floor" f_floor x q w eq_refl Hx).
  assert (C2 : call "ceil"%string = (Ok (f_ceil (f_approx x)), w)) by exact (snapped_call W fuel L rnd docs E dbg cf d Hd 11 "ceil" f_ceil x q w eq_refl Hx).
  assert (C3 : call "round"%string = (Ok (f_round (f_approx x)), w)) by exact (snapped_call W fuel L rnd docs E dbg cf d Hd 13 "round" f_round x q w eq_refl Hx).
  assert (C4 : call (if docs then "trunc" else "truncate")%string = (Ok (f_trunc (f_approx x)), w)) by exact (snapped_call W fuel L rnd docs E dbg cf d Hd 12 _ f_trunc x q w eq_refl Hx).
  assert (C5 : call (if docs then "signum" else "sign")%string = (Ok (f_signum (f_approx x)), w)) by exact (snapped_call W fuel L rnd docs E dbg cf d Hd 14 _ f_signum x q w eq_refl Hx).
  clearbody call. destruct (proj2 (approx_spec x) q Hx) as [A B].
  assert (FI : forall y k, stands_for y (inject_Z k) -> stands_for (f_floor y) (inject_Z k) /\ stands_for (f_ceil y) (inject_Z k) /\ stands_for (f_round y) (inject_Z k) /\ stands_for (f_trunc y) (inject_Z k)).
  { intros y k Hy. destruct (floor_spec y _ Hy) as (k1 & [F1 F2] & F3). destruct (ceil_spec y _ Hy) as (k2 & [G1 G2] & G3). destruct (round_spec y _ Hy) as (k3 & [R1 _] & R3 & _).
    pose proof (trunc_spec y _ Hy) as T. rewrite <- Zle_Qle in F1, G2. rewrite <- Zlt_Qlt in F2, G1. assert (k1 = k) as -> by lia. assert (k2 = k) as -> by lia.
    assert (k3 = k) as ->. { symmetry. apply int_close. eapply Qle_lt_trans; [exact R1|reflexivity]. }
    rewrite truncated_int in T. auto. }
  split; [|split].
  - intros k Hk f HIn. destruct (A k Hk) as [S _]. destruct (FI _ _ S) as (F1 & F2 & F3 & F4).
    destruct HIn as [<-|[<-|[<-|[<-|[]]]]]; eexists; (split; [eassumption|assumption]).
  - intros Far. rewrite (B Far) in *. split; [|split; [|split]].
    + destruct (floor_spec x q Hx) as (k & K1 & K2). exists k, (f_floor x). auto.
    + destruct (ceil_spec x q Hx) as (k & K1 & K2). exists k, (f_ceil x). auto.
    + destruct (round_spec x q Hx) as (k & K1 & K2 & _). exists k, (f_round x). auto.
    + exists (f_trunc x). split; [exact C4|apply trunc_spec; exact Hx].
  - eexists. split; [exact C5|].
    assert (SG : forall y p, stands_for y p -> stands_for (f_signum y) (if negative y then -1 else 1)).
    { intros y p Hy. destruct y as [s|s| |s m e]; try contradiction; destruct s; cbn [f_signum negative]; first [exact one_stands|exact (neg_exact _ _ one_stands)]. }
    destruct (near_or_far x q Hx) as [[k K]|K].
    + destruct (A k K) as [S1 S2]. rewrite <- S2. exact (SG _ _ S1).
    + rewrite (B K). exact (SG _ _ Hx).
Qed.
Print Assumptions C65_rounding.

(** ** C66: the same functions over machine integers *)

(** Over a machine integer type they are applied to the double of the argument, and give the integer part of the
    result, or [Overflow] if it does not fit (or is not a number). *)
Theorem C66_integers : forall W t dbg L (rnd : W -> f64 * W) docs E cf d,
  checked_context (int_num t dbg) L rnd docs E dbg cf = Ok d \/ unchecked_context (int_num t dbg) L rnd E dbg cf = Ok d ->
  forall name fm, In (name, fm) function_table -> forall q z w, ascii_alike q (lit name) ->
  exists r v, computes L fm (f_of_Z z) r /\ as_integer t r v /\ apply_function (to_ctx E d) q [z] w = (v, w).
Proof.
  intros W t dbg L rnd docs E cf d Hd name fm HIn q z w Hq. exists (core L fm (f_of_Z z)). eexists. split; [apply core_computes|]. split.
  2: { unfold apply_function. rewrite (table_found _ _ (int_num t dbg) L rnd docs E dbg cf d Hd name fm HIn q Hq). apply form_call. reflexivity. }
  assert (NP : core L fm (f_of_Z z) <> Panic).
  { destruct fm; cbn [core]; unfold finite_or_nan; destruct (finite _); discriminate. }
  destruct (core L fm (f_of_Z z)) as [v|k|]; [|reflexivity|congruence]. cbn [rbind as_integer n_from_f64 int_num].
  assert (T : forall p, stands_for v p -> f_trunc_Z v = Some (truncated p)).
  { intros p Hp. pose proof (trunc_spec v p Hp) as S. destruct v as [s|s| |s m e]; try contradiction.
    - cbn [f_trunc_Z]. simpl in Hp. f_equal. unfold truncated. destruct (Qle_bool 0 p); [rewrite (Qfloor_comp _ _ Hp)|rewrite (Qceiling_comp _ _ Hp)]; reflexivity.
    - destruct Hp as [N Hp]. destruct (parts m e N) as (A & r & d0 & Pd & Pr & PA & G & M & F). cbn [f_trunc_Z]. f_equal.
      specialize (F (fun _ a _ _ => a) s). cbv beta in F. destruct F as [F _]; [left; reflexivity|reflexivity|].
      pose proof (stands_unique _ _ _ F S) as U. rewrite inject_Z_injective in U. rewrite <- U. unfold signed.
      assert (X : (if 0 <=? e then Zpos m * 2 ^ e else Zpos m / 2 ^ (- e)) = A); [|rewrite X; reflexivity].
      destruct (Z.leb_spec 0 e) as [L0|L0].
      + assert (K : (inject_Z (Zpos m * 2 ^ e) * inject_Z d0 == inject_Z (A * d0 + r))%Q) by (rewrite <- G; unfold dyadic; rewrite inject_Z_mult, two_pow by exact L0; reflexivity).
        rewrite <- inject_Z_mult, inject_Z_injective in K. nia.
      + destruct (M L0) as [<- M2]. rewrite M2. rewrite Z.div_add_l, (Z.div_small r) by lia. lia. }
  split; [|split].
  - intros p Hp Fp. rewrite (T p Hp). unfold checked. rewrite (proj2 (fits_range t _) Fp). reflexivity.
  - intros p Hp Fp. rewrite (T p Hp). unfold checked. destruct (in_range t (truncated p)) eqn:R; [exfalso; apply Fp, fits_range; exact R|reflexivity].
  - intros Fv. destruct v; try discriminate; reflexivity.
Qed.
Print Assumptions C66_integers.

(** ** The hypotheses are met *)
(** A default context over [f64] (whose platform functions return their argument): the cosine of 3 - 2^-40, taken for
    90 degrees by this platform, is exactly 3; csc(1/4) is 4, csc(0) an error, csch(0) infinite, floor(-5/2) = -3. *)
Example C65_case : f64_context 100 no_libm no_random true std_env true implicit_config f_ctx /\ (Qabs (tolerance - (1 # 10000000000)) < 1 # 100000000000000000000000000)%Q /\
  (exists x q, stands_for x q /\ (Qabs (q - inject_Z 3) < tolerance)%Q /\ ~ (q == inject_Z 3)%Q /\ fst (apply_function (to_ctx std_env f_ctx) (lit "cos") [x] tt) = Ok (f_of_Z 3)) /\
  fst (apply_function (to_ctx std_env f_ctx) (lit "csc") [f_of 1 (-2)] tt) = Ok (f_of_Z 4) /\
  fst (apply_function (to_ctx std_env f_ctx) (lit "CSC") [f_zero] tt) = Err NAN /\
  fst (apply_function (to_ctx std_env f_ctx) (lit "csch") [f_zero] tt) = Ok (S754_infinity false) /\
  fst (apply_function (to_ctx std_env f_ctx) (lit "acoth") [f_of 1 (-2)] tt) = Ok (f_of_Z 4) /\
  fst (apply_function (to_ctx std_env f_ctx) (lit "floor") [f_of (-5) (-1)] tt) = Ok (f_of_Z (-3)) /\
  fst (apply_function (to_ctx std_env f_ctx) (lit "round") [f_of (-5) (-1)] tt) = Ok (f_of_Z (-3)) /\
  fst (apply_function (to_ctx std_env f_ctx) (lit "ceil") [f_of (-5) (-1)] tt) = Ok (f_of_Z (-2)).
Proof.
  split; [exact f_ctx_is|]. split; [reflexivity|]. split.
  - exists (f_of (3 * 2 ^ 40 - 1) (-40)), (dyadic (3 * 2 ^ 40 - 1) (-40)). split; [|split; [reflexivity|split; [discriminate|vm_compute; reflexivity]]].
    apply normalize_double; [reflexivity|]. exists (3 * 2 ^ 40 - 1), (-40). split; [reflexivity|]. split; [lia|reflexivity].
  - repeat split; vm_compute; reflexivity.
Qed.
(** The square root of 17 over 64-bit integers is 4; the reciprocal of 5 (csc, with these platform functions) is 0. *)
Example C66_case : fst (apply_function (std_ctx plain_config) (lit "sqrt") [17] tt) = Ok 4 /\ fst (apply_function (std_ctx plain_config) (lit "csc") [5] tt) = Ok 0 /\
  fst (apply_function (std_ctx plain_config) (lit "csch") [0] tt) = Err Overflow /\ fst (apply_function (std_ctx plain_config) (lit "csc") [0] tt) = Err NAN.
Proof. repeat split; vm_compute; reflexivity. Qed.
