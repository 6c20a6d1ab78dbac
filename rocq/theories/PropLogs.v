(** * C69: logarithms and the arc tangent, with one and with two arguments, over [f64] and machine integers *)
From Coq Require Import List NArith ZArith QArith Qabs Qround Bool Lia Lqa String.
From Coq Require Import Floats.SpecFloat.
From Verif Require Import ModelBase ModelContext ModelText ModelDefault ModelFloat ModelNum ModelOps ModelStd
  SpecText SpecExpr SpecOps SpecDecimal SpecDouble SpecRound SpecFunctions ProofText ProofDefault ProofBuild ProofCtx ProofOps ProofFloat ProofDouble ProofDouble2 ProofSnap ProofDecimal
  ProofRound ProofRound2 ProofRound3 PropDouble PropFunctions PropRandom.
Import ListNotations.
Local Open Scope Z_scope.

(** What the calls are, in terms of the platform functions. No argument and no result is snapped. *)
Definition logs (L : libm) (name : string) (args : list f64) (r : res f64) : Prop :=
  match name, args with
  | "log"%string, [x] => r = finite_or_nan (platform "log10" L x)
  | "log"%string, [x; b] => r = finite_or_nan (log_base L x b)
  | "atan"%string, [x] => r = finite_or_nan (platform "to_degrees" L (platform "atan" L x))
  | "atan"%string, [y; x] => r = if zero_double y && zero_double x then Err NAN else finite_or_nan (platform "to_degrees" L (atan2 L y x))
  | _, _ => r = Err InvalidArgumentCount
  end.

Lemma log_found : forall V W (n : num V) L (rnd : W -> f64 * W) docs E dbg cf d,
  checked_context n L rnd docs E dbg cf = Ok d \/ unchecked_context n L rnd E dbg cf = Ok d -> forall q,
  (ascii_alike q (lit "log") -> get_function (to_ctx E d) q = Some (op_log n L)) /\ (ascii_alike q (lit "atan") -> get_function (to_ctx E d) q = Some (op_atan n L)).
Proof.
  intros V W n L rnd docs E dbg cf d Hd q. split; intros Hq; destruct Hd as [Hd|Hd].
  - exact (checked_fun n L rnd docs E dbg cf d 8 _ q Hd eq_refl Hq).
  - exact (unchecked_fun n L rnd E dbg cf d 7 _ q Hd eq_refl Hq).
  - exact (checked_fun n L rnd docs E dbg cf d 26 _ q Hd eq_refl Hq).
  - exact (unchecked_fun n L rnd E dbg cf d 20 _ q Hd eq_refl Hq).
Qed.
Definition log_core (L : libm) (name : string) (args : list f64) : res f64 :=
  match name, args with
  | "log"%string, [x] => finite_or_nan (platform "log10" L x)
  | "log"%string, [x; b] => finite_or_nan (log_base L x b)
  | "atan"%string, [x] => finite_or_nan (platform "to_degrees" L (platform "atan" L x))
  | "atan"%string, [y; x] => if zero_double y && zero_double x then Err NAN else finite_or_nan (platform "to_degrees" L (atan2 L y x))
  | _, _ => Err InvalidArgumentCount
  end.
Lemma log_call : forall V W (n : num V) L (conv : V -> f64) args (w : W), (forall x, n_to_f64 n x = Some (conv x)) ->
  fn_call (op_log n L) args w = (rbind (log_core L "log" (map conv args)) (fun v => or_overflow (n_from_f64 n v)), w) /\
  fn_call (op_atan n L) args w = (rbind (log_core L "atan" (map conv args)) (fun v => or_overflow (n_from_f64 n v)), w).
Proof.
  intros V W n L conv args w H. split.
  - destruct args as [|x [|y [|z args]]]; cbn [op_log fun_ fn_call map log_core]; unfold lift; rewrite ?H; cbn [option_map finite_result_opt]; rewrite ?finite_check; reflexivity.
  - destruct args as [|x [|y [|z args]]]; cbn [op_atan fun_ fn_call map log_core]; unfold lift; rewrite ?H; cbn [option_map finite_result_opt]; rewrite ?finite_check; try reflexivity.
    change f_is_zero with zero_double. destruct (zero_double (conv x) && zero_double (conv y)); reflexivity.
Qed.

(** Over [f64]: [log(x)] is the platform's logarithm to the base 10, [log(x, b)] the one to the base [b], [atan(x)] the
    platform's arc tangent in degrees, [atan(y, x)] its angle of the point (x, y) in degrees, NAN for the origin; a result
    that is not finite is the error NAN; other numbers of arguments are errors. *)
Theorem C69_f64 : forall W fuel L (rnd : W -> f64 * W) docs E dbg cf d, f64_context fuel L rnd docs E dbg cf d ->
  forall name, In name ["log"; "atan"]%string -> forall q args w, ascii_alike q (lit name) ->
  exists r, logs L name args r /\ apply_function (to_ctx E d) q args w = (r, w).
Proof.
  intros W fuel L rnd docs E dbg cf d Hd name HIn q args w Hq. exists (log_core L name args). split.
  - destruct HIn as [<-|[<-|[]]]; destruct args as [|x [|y [|z args]]]; reflexivity.
  - unfold apply_function. destruct (log_found _ _ (f64_num fuel) L rnd docs E dbg cf d Hd q) as [F1 F2]. destruct (log_call _ W (f64_num fuel) L (fun x => x) args w (fun _ => eq_refl)) as [C1 C2].
    rewrite map_id in C1, C2. destruct HIn as [<-|[<-|[]]]; [rewrite (F1 Hq), C1|rewrite (F2 Hq), C2]; match goal with |- context [rbind ?x _] => destruct x; reflexivity end.
Qed.
Print Assumptions C69_f64.

(** Over machine integers: the same, of the doubles made of the arguments, and the integer part of the result. *)
Theorem C69_integers : forall W t dbg L (rnd : W -> f64 * W) docs E cf d,
  checked_context (int_num t dbg) L rnd docs E dbg cf = Ok d \/ unchecked_context (int_num t dbg) L rnd E dbg cf = Ok d ->
  forall name, In name ["log"; "atan"]%string -> forall q args w, ascii_alike q (lit name) ->
  exists r v, logs L name (map f_of_Z args) r /\ as_integer t r v /\ apply_function (to_ctx E d) q args w = (v, w).
Proof.
  intros W t dbg L rnd docs E cf d Hd name HIn q args w Hq. exists (log_core L name (map f_of_Z args)). eexists. split; [|split].
  - destruct HIn as [<-|[<-|[]]]; destruct args as [|x [|y [|z args]]]; reflexivity.
  - instantiate (1 := rbind (log_core L name (map f_of_Z args)) (fun v => or_overflow (n_from_f64 (int_num t dbg) v))).
    assert (NP : log_core L name (map f_of_Z args) <> Panic).
    { destruct HIn as [<-|[<-|[]]]; destruct args as [|x [|y [|z args]]]; cbn [log_core map]; try discriminate; unfold finite_or_nan; repeat match goal with |- context [if ?b then _ else _] => destruct b end; discriminate. }
    destruct (log_core L name (map f_of_Z args)) as [v|k|]; [|reflexivity|congruence]. cbn [rbind as_integer n_from_f64 int_num]. split; [|split].
    + intros p Hp Fp. rewrite (trunc_Z_spec v p Hp). unfold checked. rewrite (proj2 (fits_range t _) Fp). reflexivity.
    + intros p Hp Fp. rewrite (trunc_Z_spec v p Hp). unfold checked. destruct (in_range t (truncated p)) eqn:R; [exfalso; apply Fp, fits_range; exact R|reflexivity].
    + intros Fv. destruct v; try discriminate; reflexivity.
  - unfold apply_function. destruct (log_found _ _ (int_num t dbg) L rnd docs E dbg cf d Hd q) as [F1 F2]. destruct (log_call _ W (int_num t dbg) L f_of_Z args w (fun _ => eq_refl)) as [C1 C2].
    destruct HIn as [<-|[<-|[]]]; [rewrite (F1 Hq), C1|rewrite (F2 Hq), C2]; reflexivity.
Qed.
Print Assumptions C69_integers.

(** Consequences on a platform that computes [log(x, b)] as [ln(x) / ln(b)], as Rust does, with ln 1 = 0, ln 0 = -oo and
    NaN for negative numbers: the logarithm to the base 1, of 0 and of negative numbers are errors, that of the base is 1,
    that of 1 is 0. *)
Definition usual_ln (L : libm) : Prop :=
  (forall x b, log_base L x b = f_div (platform "ln" L x) (platform "ln" L b)) /\
  platform "ln" L f_one = f_zero /\
  (forall s, platform "ln" L (S754_zero s) = S754_infinity true) /\
  (forall x, zero_double x = false -> negative x = true -> platform "ln" L x = S754_nan) /\
  platform "log10" L f_one = f_zero /\
  (forall s, platform "log10" L (S754_zero s) = S754_infinity true) /\
  (forall x, zero_double x = false -> negative x = true -> platform "log10" L x = S754_nan).
Theorem C69_logarithms : forall W fuel L (rnd : W -> f64 * W) docs E dbg cf d, f64_context fuel L rnd docs E dbg cf d -> usual_ln L -> forall w,
  let call := fun args => apply_function (to_ctx E d) (lit "log") args w in
  (forall x, call [x; f_one] = (Err NAN, w)) /\
  (forall x, zero_double x = true \/ negative x = true -> call [x] = (Err NAN, w)) /\
  (forall x b, zero_double x = false -> negative x = true -> call [x; b] = (Err NAN, w)) /\
  (forall x b, zero_double b = false -> negative b = true -> call [x; b] = (Err NAN, w)) /\
  (forall s b, finite (platform "ln" L b) = true -> call [S754_zero s; b] = (Err NAN, w)) /\
  (forall b q, stands_for (platform "ln" L b) q -> ~ (q == 0)%Q -> exists v, call [b; b] = (Ok v, w) /\ stands_for v 1) /\
  (forall b q, stands_for (platform "ln" L b) q -> ~ (q == 0)%Q -> exists v, call [f_one; b] = (Ok v, w) /\ stands_for v 0) /\
  call [f_one] = (Ok f_zero, w).
Proof.
  intros W fuel L rnd docs E dbg cf d Hd (H1 & H2 & H3 & H4 & H5 & H6 & H7) w call.
  assert (X : forall args, call args = (log_core L "log" args, w)).
  { intros args. unfold call. destruct (C69_f64 W fuel L rnd docs E dbg cf d Hd "log"%string (or_introl eq_refl) (lit "log") args w (alike_refl _)) as (r & R & ->).
    destruct args as [|x [|y [|z args]]]; cbn in R; rewrite R; reflexivity. }
  split; [|split; [|split; [|split; [|split; [|split; [|split]]]]]].
  - intros x. rewrite X. cbn [log_core]. rewrite H1, H2. destruct (platform "ln" L x); reflexivity.
  - intros x Hx. rewrite X. cbn [log_core]. destruct (zero_double x) eqn:Z; [destruct x; try discriminate Z; rewrite H6; reflexivity|]. destruct Hx as [Hx|Hx]; [discriminate Hx|]. rewrite (H7 x Z Hx). reflexivity.
  - intros x b Z N. rewrite X. cbn [log_core]. rewrite H1, (H4 x Z N). reflexivity.
  - intros x b Z N. rewrite X. cbn [log_core]. rewrite H1, (H4 b Z N). destruct (platform "ln" L x); reflexivity.
  - intros s b F. rewrite X. cbn [log_core]. rewrite H1, H3. destruct (platform "ln" L b); try discriminate F; reflexivity.
  - intros b q Hb Hq. rewrite X. cbn [log_core]. rewrite H1. assert (E1 : (q / q == 1)%Q) by (field; exact Hq).
    assert (S : stands_for (f_div (platform "ln" L b) (platform "ln" L b)) (q / q)). { apply ProofDouble2.div_exact; [exact Hb|exact Hb|exact Hq|]. exists 1, 0. split; [lia|split; [lia|exact E1]]. }
    exists (f_div (platform "ln" L b) (platform "ln" L b)). split; [|exact (stands_comp _ _ _ E1 S)]. unfold finite_or_nan. destruct (f_div _ _); try contradiction; reflexivity.
  - intros b q Hb Hq. rewrite X. cbn [log_core]. rewrite H1, H2. assert (E1 : (0 / q == 0)%Q) by (field; exact Hq).
    assert (S : stands_for (f_div f_zero (platform "ln" L b)) (0 / q)). { apply ProofDouble2.div_exact; [reflexivity|exact Hb|exact Hq|]. exists 0, 0. split; [lia|split; [lia|exact E1]]. }
    exists (f_div f_zero (platform "ln" L b)). split; [|exact (stands_comp _ _ _ E1 S)]. unfold finite_or_nan. destruct (f_div _ _); try contradiction; reflexivity.
  - rewrite X. cbn [log_core]. rewrite H5. reflexivity.
Qed.
Print Assumptions C69_logarithms.

(** Refuted: that [acot(x)] is [atan(1/x)], as [acsc(x)] is [asin(1/x)]: [atan], alone among the inverse functions, does
    not replace a result within 1e-10 of an integer by that integer. *)
Theorem C69_acot_refuted : exists L : libm, forall W fuel (rnd : W -> f64 * W) docs E dbg cf d, f64_context fuel L rnd docs E dbg cf d -> forall w, exists x : f64, stands_for x 1 /\ reciprocal x = x /\
  fst (apply_function (to_ctx E d) (lit "acot") [x] w) <> fst (apply_function (to_ctx E d) (lit "atan") [reciprocal x] w).
Proof.
  exists (Libm (fun _ _ => f_of (45 * 2 ^ 40 + 1) (-40)) (fun x _ => x) (fun x _ => x) (fun x _ => x)).
  set (L := Libm (fun _ _ => f_of (45 * 2 ^ 40 + 1) (-40)) (fun x _ => x) (fun x _ => x) (fun x _ => x)).
  intros W fuel rnd docs E dbg cf d Hd w. exists f_one. split; [exact one_stands|]. split; [reflexivity|].
  destruct (C69_f64 W fuel L rnd docs E dbg cf d Hd "atan"%string (or_intror (or_introl eq_refl)) (lit "atan") [reciprocal f_one] w (alike_refl _)) as (r & R & ->). cbn in R. rewrite R.
  unfold apply_function. rewrite (table_found _ _ (f64_num fuel) L rnd docs E dbg cf d Hd "acot"%string (To_degrees_of_reciprocal "atan") ltac:(unfold function_table; repeat first [left; reflexivity | right]) (lit "acot") (alike_refl _)).
  rewrite (form_call _ _ (f64_num fuel) L "acot" _ f_one f_one w eq_refl). cbn [core rbind fst].
  replace (f_approx (platform "to_degrees" L (platform "atan" L (reciprocal f_one)))) with (f_of_Z 45) by (vm_compute; reflexivity).
  replace (finite_or_nan (f_of (45 * 2 ^ 40 + 1) (-40))) with (@Ok f64 (f_of (45 * 2 ^ 40 + 1) (-40))) by (vm_compute; reflexivity).
  vm_compute. discriminate.
Qed.
Print Assumptions C69_acot_refuted.

(** ** Cases *)
(** A platform whose ln is the number of binary digits, for powers of two: log(8, 2) = 3, log(2, 8) = 1/3 rounded. *)
Definition bit_ln (x : f64) : f64 :=
  match x with
  | S754_zero _ => S754_infinity true
  | S754_finite false m e => f_of_Z (Zpos (digits2_pos m) + e - 1)
  | S754_infinity false => S754_infinity false
  | _ => S754_nan
  end.
Definition bit_libm : libm := Libm (fun m x => if str_eqb m (lit "ln") || str_eqb m (lit "log10") then bit_ln x else x) (fun x _ => x) (fun x b => f_div (bit_ln x) (bit_ln b)) (fun y x => f_sub y x).
Lemma bit_usual : usual_ln bit_libm.
Proof.
  split; [reflexivity|]. split; [reflexivity|]. split; [reflexivity|]. split; [|split; [reflexivity|split; [reflexivity|]]]; intros x Z N; destruct x as [s|s| |s m e]; try discriminate Z; simpl in N; try discriminate N; subst; reflexivity.
Qed.
Definition bit_ctx : dctx f64 unit := unres (checked_context (f64_num 100) bit_libm no_random true std_env true implicit_config) implicit_config.
Definition bit_int_ctx : dctx Z unit := unres (checked_context (int_num i64 true) bit_libm no_random true std_env true implicit_config) implicit_config.
Lemma bit_ctx_is : f64_context 100 bit_libm no_random true std_env true implicit_config bit_ctx.
Proof. left. unfold bit_ctx. rewrite (checked_is (f64_num 100) bit_libm no_random true std_env true f_PI f_E eq_refl eq_refl). reflexivity. Qed.
Example C69_case : usual_ln bit_libm /\ f64_context 100 bit_libm no_random true std_env true implicit_config bit_ctx /\
  (exists q, stands_for (platform "ln" bit_libm (f_of_Z 8)) q /\ ~ (q == 0)%Q) /\
  fst (apply_function (to_ctx std_env bit_ctx) (lit "log") [f_of_Z 8; f_of_Z 2] tt) = Ok (f_of_Z 3) /\
  fst (apply_function (to_ctx std_env bit_ctx) (lit "log") [f_of_Z 8; f_of_Z 1] tt) = Err NAN /\
  fst (apply_function (to_ctx std_env bit_ctx) (lit "log") [f_of_Z 8] tt) = Ok (f_of_Z 3) /\
  fst (apply_function (to_ctx std_env bit_ctx) (lit "log") [] tt) = Err InvalidArgumentCount /\
  fst (apply_function (to_ctx std_env bit_ctx) (lit "atan") [f_of_Z 5; f_of_Z 2] tt) = Ok (f_of_Z 3) /\
  fst (apply_function (to_ctx std_env bit_ctx) (lit "ATAN") [f_zero; f_zero] tt) = Err NAN /\
  fst (apply_function (to_ctx std_env bit_int_ctx) (lit "log") [2; 8] tt) = Ok 0 /\
  fst (apply_function (to_ctx std_env bit_int_ctx) (lit "log") [1024; 4] tt) = Ok 5.
Proof.
  split; [exact bit_usual|]. split; [exact bit_ctx_is|]. split; [exists (inject_Z 3); split; [|discriminate]|].
  - replace (platform "ln" bit_libm (f_of_Z 8)) with (f_of_Z 3) by (vm_compute; reflexivity). apply of_Z_exact, int_double. lia.
  - repeat split; vm_compute; reflexivity.
Qed.
