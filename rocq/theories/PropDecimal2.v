(** * The functions of decimal contexts (C52, C53)

    As in PropDecimal. *)
From Coq Require Import List NArith ZArith QArith Qabs Qround Qpower Bool Lia Lqa String.
From Verif Require Import ModelBase ModelContext ModelEvaluator ModelText ModelDefault ModelFloat ModelNum ModelOps ModelStd ModelDecimal
  SpecText SpecExpr SpecTokens SpecOps SpecDecimal ProofText ProofDefault ProofRpn ProofTokens2 ProofBuild ProofCtx ProofWf ProofOps3 ProofDecRef ProofDecimal ProofDecimal2 ProofDecTrig ProofDecFun ProofDecFun2 PropDecimal.
Import ListNotations.
Local Open Scope Z_scope.

(** ** C52: values *)
Ltac fn i f nm := match goal with Hd : decimal_context ?L ?fuel ?rnd ?E ?dbg ?cf = Ok ?d |- _ => rewrite (dec_fun L fuel rnd E dbg cf d Hd i f (lit nm) eq_refl (alike_refl _)) end.

Lemma bool_false : forall b, b <> true -> b = false. Proof. intros []; congruence. Qed.

Theorem C52_rounding : forall D W (L : dlib D) value, exact_decimals L value -> forall fuel (rnd : W -> f64 * W) E dbg cf d, decimal_context L fuel rnd E dbg cf = Ok d ->
  forall x w,
  (exists y, apply_function (to_ctx E d) (lit "ceil") [x] w = (Ok y, w) /\ (value y == inject_Z (Qceiling (value x)))%Q) /\
  (exists y, apply_function (to_ctx E d) (lit "floor") [x] w = (Ok y, w) /\ (value y == inject_Z (Qfloor (value x)))%Q) /\
  (exists y, apply_function (to_ctx E d) (lit "truncate") [x] w = (Ok y, w) /\ (value y == inject_Z (truncated (value x)))%Q) /\
  (exists y k, apply_function (to_ctx E d) (lit "round") [x] w = (Ok y, w) /\ (value y == inject_Z k)%Q /\ (Qabs (value x - inject_Z k) <= 1 # 2)%Q).
Proof.
  intros D W L value EX fuel rnd E dbg cf d Hd x w. unfold apply_function. fn 10%nat (@fwd D W "ceil"%string (d_ceil L)) "ceil"%string. fn 11%nat (@fwd D W "floor"%string (d_floor L)) "floor"%string.
  fn 12%nat (@fwd D W "truncate"%string (d_trunc L)) "truncate"%string. fn 13%nat (@fwd D W "round"%string (d_round L)) "round"%string.
  repeat match goal with |- _ /\ _ => split end.
  - eexists. split; [reflexivity|apply (ed_ceil _ _ EX)].
  - eexists. split; [reflexivity|apply (ed_floor _ _ EX)].
  - eexists. split; [reflexivity|apply (ed_trunc _ _ EX)].
  - destruct (ed_round _ _ EX x) as (k & K). eexists. exists k. split; [reflexivity|exact K].
Qed.
Print Assumptions C52_rounding.

(** Where the functions are not defined the result is [Overflow]. *)
Theorem C52_domains : forall D W (L : dlib D) value, exact_decimals L value -> forall fuel (rnd : W -> f64 * W) E dbg cf d, decimal_context L fuel rnd E dbg cf = Ok d ->
  forall x y w,
  ((value x <= 0)%Q -> apply_function (to_ctx E d) (lit "ln") [x] w = (Err Overflow, w) /\ apply_function (to_ctx E d) (lit "log") [x] w = (Err Overflow, w) /\
                       apply_function (to_ctx E d) (lit "log") [x; y] w = (Err Overflow, w)) /\
  ((40 <= fuel)%nat -> (value y <= 0)%Q \/ (value y == 1)%Q -> apply_function (to_ctx E d) (lit "log") [x; y] w = (Err Overflow, w)) /\
  ((value x < 0)%Q -> apply_function (to_ctx E d) (lit "sqrt") [x] w = (Err Overflow, w)) /\
  ((value x < 1)%Q -> apply_function (to_ctx E d) (lit "acosh") [x] w = (Err Overflow, w)) /\
  ((value x <= -1)%Q \/ (1 < value x)%Q -> apply_function (to_ctx E d) (lit "atanh") [x] w = (Err Overflow, w)) /\
  ((value x == 0)%Q -> apply_function (to_ctx E d) (lit "csch") [x] w = (Err Overflow, w) /\ apply_function (to_ctx E d) (lit "coth") [x] w = (Err Overflow, w)).
Proof.
  intros D W L value EX fuel rnd E dbg cf d Hd x y w. unfold apply_function. fn 7%nat (@fwd_checked D W "ln"%string (checked_ln L fuel)) "ln"%string. fn 8%nat (@x_log D W L fuel) "log"%string.
  fn 6%nat (@fwd_checked D W "sqrt"%string (checked_sqrt L fuel)) "sqrt"%string. fn 36%nat (@fwd_checked D W "acosh"%string (acosh L fuel)) "acosh"%string. fn 37%nat (@fwd_checked D W "atanh"%string (atanh L fuel)) "atanh"%string.
  fn 32%nat (@fwd_checked_inv D W L "csch"%string (sinh L)) "csch"%string. fn 34%nat (@fwd_checked_inv D W L "coth"%string (tanh L)) "coth"%string.
  cbn [fwd_checked fwd_checked_inv x_log fun_ fn_call]. unfold lift, one_arg. pose proof (one_val L value EX) as V1. pose proof (minus_val L value EX) as VM.
  repeat match goal with |- _ /\ _ => split end.
  - intros Hx. unfold checked_log. rewrite (ln_pos_only L value EX fuel x Hx). repeat split; reflexivity.
  - intros Hf Hy. unfold checked_log. destruct (ln_quiet L value EX fuel x Hf) as [[a|] ->]; [|reflexivity]. cbn [ModelDecimal.call].
    assert (T : d_eq L y (TEN L) = false). { apply bool_false. intros B. apply (d_eq_iff L value EX) in B. rewrite (ten_val L value EX) in B. destruct Hy as [Hy|Hy]; rewrite B in Hy; [apply Hy; reflexivity|discriminate Hy]. }
    rewrite T. destruct Hy as [Hy|Hy]; [rewrite (ln_pos_only L value EX fuel y Hy); reflexivity|]. rewrite (ln_one L value EX fuel y Hy). cbn [ModelDecimal.call]. unfold d_div. rewrite (ed_div_zero _ _ EX a (ZERO L) (zero_val L value EX)). reflexivity.
  - intros Hx. unfold checked_sqrt. rewrite (ed_negative _ _ EX x Hx). reflexivity.
  - intros Hx. unfold acosh. assert (B : d_lt L x (ONE L) = true) by (apply (d_lt_iff L value EX); rewrite V1; exact Hx). rewrite B. reflexivity.
  - intros Hx. unfold atanh. destruct (d_lt L x (ONE_MINUS L) || d_gt L x (ONE L)) eqn:B; [reflexivity|]. apply orb_false_iff in B. destruct B as [B1 B2]. apply (d_lt_false L value EX) in B1. apply (d_gt_false L value EX) in B2. rewrite VM in B1. rewrite V1 in B2.
    assert (X : (value x == -1)%Q) by lra. destruct (computes_exact value _ _ (ed_add _ _ EX (ONE L) x)) as (x0 & X1 & X2); [apply (rep_comp (inject_Z 0)); [rewrite V1, X; reflexivity|apply int_rep; reflexivity]|]. unfold d_add. rewrite X1. cbn [must].
    destruct (computes_exact value _ _ (ed_sub _ _ EX (ONE L) x)) as (x1 & Y1 & Y2); [apply (rep_comp (inject_Z 2)); [rewrite V1, X; reflexivity|apply int_rep; reflexivity]|]. unfold d_sub. rewrite Y1. cbn [must].
    assert (Z1 : (value x1 == 2)%Q) by (rewrite Y2, V1, X; reflexivity). assert (Z0 : (value x0 == 0)%Q) by (rewrite X2, V1, X; reflexivity).
    destruct (div_exact L value EX x0 x1 0 Z0) as (q & -> & Q); [rewrite Z1; discriminate|apply (rep_comp (inject_Z 0)); [rewrite Z1; reflexivity|apply int_rep; reflexivity]|]. cbn [must].
    rewrite (ln_pos_only L value EX fuel q); [reflexivity|]. rewrite Q, Z1. discriminate.
  - intros Hx. destruct (hyper_zero L value EX x Hx) as ((s & S1 & S2) & _ & (t & T1 & T2)). rewrite S1, T1. cbn [ModelDecimal.call]. unfold ModelDecimal.checked_inv.
    apply (is_zero_iff L value EX) in S2. apply (is_zero_iff L value EX) in T2. rewrite S2, T2. split; reflexivity.
Qed.
Print Assumptions C52_domains.

(** Particular values, exact. *)
Theorem C52_values : forall D W (L : dlib D) value, exact_decimals L value -> forall fuel (rnd : W -> f64 * W) E dbg cf d, decimal_context L fuel rnd E dbg cf = Ok d ->
  forall f a v w x, (40 <= fuel)%nat -> In (f, a, v) [("ln", 1, 0); ("exp", 0, 1); ("log", 1, 0); ("log", 10, 1); ("sin", 0, 0); ("cos", 0, 1); ("tan", 0, 0); ("atan", 0, 0);
    ("sinh", 0, 0); ("cosh", 0, 1); ("tanh", 0, 0); ("sech", 0, 1); ("cbrt", 1, 1)]%string -> (value x == inject_Z a)%Q ->
  exists y, apply_function (to_ctx E d) (lit f) [x] w = (Ok y, w) /\ (value y == inject_Z v)%Q.
Proof.
  intros D W L value EX fuel rnd E dbg cf d Hd f a v w x Hf HI Hx. unfold apply_function. pose proof (zero_val L value EX) as V0. pose proof (one_val L value EX) as V1.
  destruct HI as [H|[H|[H|[H|[H|[H|[H|[H|[H|[H|[H|[H|[H|[]]]]]]]]]]]]]]; injection H as <- <- <-; unfold inject_Z in Hx.
  - fn 7%nat (@fwd_checked D W "ln"%string (checked_ln L fuel)) "ln"%string. exists (ZERO L). split; [|exact V0]. cbn [fwd_checked fun_ fn_call]. unfold lift, one_arg. rewrite (ln_one L value EX fuel x Hx). reflexivity.
  - fn 14%nat (@fwd_checked D W "exp"%string (checked_exp L)) "exp"%string. exists (ONE L). split; [|exact V1]. cbn [fwd_checked fun_ fn_call]. unfold lift, one_arg. rewrite (proj1 (exp_zero_one L value EX x) Hx). reflexivity.
  - fn 8%nat (@x_log D W L fuel) "log"%string. cbn [x_log fun_ fn_call]. unfold lift, checked_log. rewrite (ln_one L value EX fuel x Hx). cbn [ModelDecimal.call].
    assert (T : d_eq L (TEN L) (TEN L) = true) by (apply (d_eq_iff L value EX); reflexivity). rewrite T. assert (VL : ~ (value (LN_10 L) == 0)%Q) by (unfold LN_10; rewrite (lit28 L value EX) by reflexivity; discriminate).
    destruct (div_exact L value EX (ZERO L) (LN_10 L) 0 V0 VL) as (q & -> & Q); [apply (rep_comp (inject_Z 0)); [field; exact VL|apply int_rep; reflexivity]|]. exists q. split; [reflexivity|]. rewrite Q. unfold inject_Z. field. exact VL.
  - fn 8%nat (@x_log D W L fuel) "log"%string. cbn [x_log fun_ fn_call]. unfold lift, checked_log. destruct (ln_ten L value EX fuel x ltac:(lia) Hx) as (l & -> & Hl). cbn [ModelDecimal.call].
    assert (T : d_eq L (TEN L) (TEN L) = true) by (apply (d_eq_iff L value EX); reflexivity). rewrite T. assert (VL : ~ (value (LN_10 L) == 0)%Q) by (unfold LN_10; rewrite (lit28 L value EX) by reflexivity; discriminate).
    destruct (div_exact L value EX l (LN_10 L) (value l) ltac:(reflexivity) VL) as (q & -> & Q); [apply (rep_comp (inject_Z 1)); [rewrite Hl; unfold inject_Z; field; exact VL|apply int_rep; reflexivity]|]. exists q. split; [reflexivity|]. rewrite Q, Hl. unfold inject_Z. field. exact VL.
  - fn 17%nat (@trig_checked D W L "sin"%string (checked_sin L)) "sin"%string. cbn [trig_checked fun_ fn_call]. unfold lift, one_arg. destruct (radians_zero L value EX x Hx) as (y & -> & Y). cbn [ModelDecimal.call].
    rewrite (proj1 (trig_zero L value EX y Y)). exists (ZERO L). split; [reflexivity|exact V0].
  - fn 18%nat (@trig_checked D W L "cos"%string (checked_cos L)) "cos"%string. cbn [trig_checked fun_ fn_call]. unfold lift, one_arg. destruct (radians_zero L value EX x Hx) as (y & -> & Y). cbn [ModelDecimal.call].
    rewrite (proj1 (proj2 (trig_zero L value EX y Y))). exists (ONE L). split; [reflexivity|exact V1].
  - fn 19%nat (@trig_checked D W L "tan"%string (checked_tan L)) "tan"%string. cbn [trig_checked fun_ fn_call]. unfold lift, one_arg. destruct (radians_zero L value EX x Hx) as (y & -> & Y). cbn [ModelDecimal.call].
    destruct (proj2 (proj2 (trig_zero L value EX y Y))) as (t & -> & T). exists t. split; [reflexivity|exact T].
  - fn 25%nat (@x_atan D W L fuel) "atan"%string. cbn [x_atan fun_ fn_call]. unfold lift, atan. apply (is_zero_iff L value EX) in Hx. destruct fuel as [|k]; [lia|]. cbn [atan_rec]. rewrite Hx. exists (ZERO L). split; [reflexivity|exact V0].
  - fn 29%nat (@fwd_checked D W "sinh"%string (sinh L)) "sinh"%string. cbn [fwd_checked fun_ fn_call]. unfold lift, one_arg. destruct (hyper_zero L value EX x Hx) as ((y & -> & Y) & _ & _). exists y. split; [reflexivity|exact Y].
  - fn 30%nat (@fwd_checked D W "cosh"%string (cosh L)) "cosh"%string. cbn [fwd_checked fun_ fn_call]. unfold lift, one_arg. destruct (hyper_zero L value EX x Hx) as (_ & (y & -> & Y) & _). exists y. split; [reflexivity|exact Y].
  - fn 31%nat (@fwd_checked D W "tanh"%string (tanh L)) "tanh"%string. cbn [fwd_checked fun_ fn_call]. unfold lift, one_arg. destruct (hyper_zero L value EX x Hx) as (_ & _ & (y & -> & Y)). exists y. split; [reflexivity|exact Y].
  - fn 33%nat (@fwd_checked_inv D W L "sech"%string (cosh L)) "sech"%string. cbn [fwd_checked_inv fun_ fn_call]. unfold lift, one_arg. destruct (hyper_zero L value EX x Hx) as (_ & (y & -> & Y) & _). cbn [ModelDecimal.call]. unfold ModelDecimal.checked_inv.
    assert (B : is_zero L y = false). { apply bool_false. intros B. apply (is_zero_iff L value EX) in B. rewrite Y in B. discriminate B. } rewrite B. unfold inv.
    destruct (div_exact L value EX (ONE L) y 1 V1) as (q & -> & Q); [rewrite Y; discriminate|apply (rep_comp (inject_Z 1)); [rewrite Y; reflexivity|apply int_rep; reflexivity]|]. exists q. split; [reflexivity|]. rewrite Q, Y. reflexivity.
  - fn 5%nat (@fwd_checked D W "cbrt"%string (checked_cbrt L)) "cbrt"%string. cbn [fwd_checked fun_ fn_call]. unfold lift, one_arg, checked_cbrt. pose proof Hx as Hx'. apply (is_one_iff L value EX) in Hx'. rewrite Hx'. exists x. split; [reflexivity|exact Hx].
Qed.
Print Assumptions C52_values.

(** A square root that is returned is correct to four units of the last place. *)
Theorem C52_sqrt : forall D W (L : dlib D) value, exact_decimals L value -> forall fuel (rnd : W -> f64 * W) E dbg cf d, decimal_context L fuel rnd E dbg cf = Ok d ->
  forall x y w s, apply_function (to_ctx E d) (lit "sqrt") [x] w = (Ok y, w) -> ~ (value y == 0)%Q -> 0 <= s <= 28 ->
  ((Qabs (value x / value y) + Qabs (value y) + 2) * inject_Z (10 ^ s) < inject_Z (2 ^ 95))%Q ->
  (Qabs (value y * value y - value x) * inject_Z (10 ^ s) <= 4 * Qabs (value y))%Q.
Proof.
  intros D W L value EX fuel rnd E dbg cf d Hd x y w s. unfold apply_function. fn 6%nat (@fwd_checked D W "sqrt"%string (checked_sqrt L fuel)) "sqrt"%string. cbn [fwd_checked fun_ fn_call]. unfold lift, one_arg. intros H Hy Hs HB.
  assert (H' : checked_sqrt L fuel x = Ok (Some y)). { destruct (checked_sqrt L fuel x) as [[z|]|k|]; cbn [or_over] in H; congruence. }
  pose proof (sqrt_accurate L value EX fuel x y s H' Hy Hs HB) as A.
  setoid_replace (value y * value y - value x)%Q with (value y * (value y - value x / value y))%Q by (field; exact Hy). rewrite Qabs_Qmult. pose proof (Qabs_nonneg (value y)).
  setoid_replace (Qabs (value y) * Qabs (value y - value x / value y) * inject_Z (10 ^ s))%Q with ((Qabs (value y - value x / value y) * inject_Z (10 ^ s)) * Qabs (value y))%Q by ring.
  apply Qmult_le_compat_r; assumption.
Qed.
Print Assumptions C52_sqrt.

(** [csc], [sec], [cot] are not the reciprocals but the same as [sin], [cos], [tan]: so [csc(0)] is 0, [cot(0)] is 0; [acot] is the same as [atan]. *)
Theorem C52_reciprocals_refuted : forall D W (L : dlib D) value, exact_decimals L value -> forall fuel (rnd : W -> f64 * W) E dbg cf d, decimal_context L fuel rnd E dbg cf = Ok d ->
  forall args w,
  apply_function (to_ctx E d) (lit "csc") args w = apply_function (to_ctx E d) (lit "sin") args w /\
  apply_function (to_ctx E d) (lit "sec") args w = apply_function (to_ctx E d) (lit "cos") args w /\
  apply_function (to_ctx E d) (lit "cot") args w = apply_function (to_ctx E d) (lit "tan") args w /\
  (List.length args = 1%nat -> apply_function (to_ctx E d) (lit "acot") args w = apply_function (to_ctx E d) (lit "atan") args w) /\
  (forall x, args = [x] -> (value x == 0)%Q -> exists y z, apply_function (to_ctx E d) (lit "csc") args w = (Ok y, w) /\ (value y == 0)%Q /\ apply_function (to_ctx E d) (lit "cot") args w = (Ok z, w) /\ (value z == 0)%Q).
Proof.
  intros D W L value EX fuel rnd E dbg cf d Hd args w. unfold apply_function.
  fn 20%nat (@trig_checked D W L "csc"%string (checked_sin L)) "csc"%string. fn 17%nat (@trig_checked D W L "sin"%string (checked_sin L)) "sin"%string.
  fn 21%nat (@trig_checked D W L "sec"%string (checked_cos L)) "sec"%string. fn 18%nat (@trig_checked D W L "cos"%string (checked_cos L)) "cos"%string.
  fn 22%nat (@trig_checked D W L "cot"%string (checked_tan L)) "cot"%string. fn 19%nat (@trig_checked D W L "tan"%string (checked_tan L)) "tan"%string.
  fn 28%nat (@arc_rec D W "acot"%string (atan L fuel)) "acot"%string. fn 25%nat (@x_atan D W L fuel) "atan"%string.
  split; [reflexivity|]. split; [reflexivity|]. split; [reflexivity|]. split.
  - intros Hl. destruct args as [|x [|y args]]; try discriminate. reflexivity.
  - intros x -> Hx. cbn [trig_checked fun_ fn_call]. unfold lift, one_arg. destruct (radians_zero L value EX x Hx) as (y & -> & Y). cbn [ModelDecimal.call]. destruct (trig_zero L value EX y Y) as (-> & _ & (t & -> & T)).
    exists (ZERO L), t. split; [reflexivity|]. split; [apply (zero_val L value EX)|]. split; [reflexivity|exact T].
Qed.
Print Assumptions C52_reciprocals_refuted.

(** The angle of the point [(0, y)] is a quarter turn; the code returns a full turn. *)
Theorem C52_atan2_refuted : forall D W (L : dlib D) value, exact_decimals L value -> forall fuel (rnd : W -> f64 * W) E dbg cf d, decimal_context L fuel rnd E dbg cf = Ok d ->
  forall y x w, (value x == 0)%Q -> ~ (value y == 0)%Q -> exists r, apply_function (to_ctx E d) (lit "atan") [y; x] w = (Ok r, w) /\
  ((0 < value y)%Q -> (628 # 100 < value r)%Q) /\ ((value y < 0)%Q -> (value r < - (628 # 100))%Q).
Proof.
  intros D W L value EX fuel rnd E dbg cf d Hd y x w Hx Hy. unfold apply_function. fn 25%nat (@x_atan D W L fuel) "atan"%string. cbn [x_atan fun_ fn_call]. unfold lift, atan2.
  assert (B : is_zero L y = false). { apply bool_false. intros B. apply (is_zero_iff L value EX) in B. contradiction. } apply (is_zero_iff L value EX) in Hx. rewrite B, Hx. cbn [andb or_over some]. eexists. split; [reflexivity|].
  pose proof (zero_val L value EX) as V0. split; intros H.
  - assert (G : d_gt L y (ZERO L) = true) by (apply (d_gt_iff L value EX); rewrite V0; exact H). rewrite G. unfold PI_2. rewrite (lit28 L value EX) by reflexivity. reflexivity.
  - assert (G : d_gt L y (ZERO L) = false) by (apply (d_gt_false L value EX); rewrite V0; apply Qlt_le_weak; exact H). rewrite G. unfold PI_2_MINUS. rewrite (lit28 L value EX) by reflexivity. reflexivity.
Qed.
Print Assumptions C52_atan2_refuted.

(** ** C53: panics *)
Definition may_panic : list string := ["sum"; "avg"; "product"; "sqrt"; "to_degrees"; "asin"; "acos"; "atan"; "acsc"; "asec"; "sinh"; "cosh"; "tanh"; "csch"; "sech"; "coth"; "asinh"; "acosh"; "atanh"; "acsch"; "asech"; "acoth"]%string.

Lemma decimal_safe : forall D W (L : dlib D) value, exact_decimals L value -> forall fuel (rnd : W -> f64 * W) E dbg cf d, decimal_context L fuel rnd E dbg cf = Ok d -> (40 <= fuel)%nat ->
  (forall f, (forall g, In g may_panic -> eq_ignore_case E f (lit g) = false) -> calls_safely (to_ctx E d) (TFunction f)) /\
  (forall u, eq_ignore_case E u (lit "!") = false -> calls_safely (to_ctx E d) (TUnary u)) /\
  (forall o, eq_ignore_case E o (lit "^") = false -> calls_safely (to_ctx E d) (TBinary o)).
Proof.
  intros D W L value EX fuel rnd E dbg cf d Hd Hf.
  assert (OV : forall q (r : option D), computes value q r -> or_over (opt r) <> Panic) by (intros q r C; apply (outcome_of value q r C)).
  assert (OB : forall o, eq_ignore_case E o (lit "^") = false -> calls_safely (to_ctx E d) (TBinary o)).
  { intros o Ho f x y w' Hg. apply (dec_bin_found L fuel rnd E dbg cf d Hd) in Hg. destruct Hg as [Hi Hn].
    destruct Hi as [<-|[<-|[<-|[<-|[<-|[<-|[]]]]]]]; cbn [x_add x_sub x_mul x_div x_mod x_pow binop bf_call]; unfold lift; cbn [fst].
    - eapply OV, (ed_add _ _ EX). - eapply OV, (ed_sub _ _ EX). - eapply OV, (ed_mul _ _ EX).
    - unfold opt. destruct (d_cdiv L x y); discriminate.
    - cbn [x_pow binop bf_name] in Hn. congruence.
    - unfold opt. destruct (d_crem L x y); discriminate. }
  assert (OF : forall f, (forall g, In g may_panic -> eq_ignore_case E f (lit g) = false) -> calls_safely (to_ctx E d) (TFunction f)).
  { intros f Hg g args w' Hf'. apply (dec_fun_found L fuel rnd E dbg cf d Hd) in Hf'. destruct Hf' as [Hi Hn].
    assert (Out : forall nm, fn_name g = lit nm -> In nm may_panic -> False) by (intros nm N I; rewrite N, (Hg nm I) in Hn; discriminate).
    assert (Calm : forall ok, calm ok g -> fst (fn_call g args w') <> Panic) by (intros ok C; apply C).
    unfold dec_funs in Hi. unfold may_panic in Out.
    repeat (destruct Hi as [<-|Hi]; [first
      [exfalso; eapply Out; [reflexivity|cbn [In]; tauto]
      |eapply Calm; first
        [apply calm_plain
        |apply calm_best
        |apply (calm_rand (dec_num L fuel) rnd)
        |apply (calm_log L value EX fuel Hf)
        |apply calm_fwd; first [exact (cbrt_quiet L)|intros; apply (ln_quiet L value EX fuel _ Hf)|apply (exp_quiet L value EX)|intros x; destruct (to_radians_quiet L value EX x) as (y & ->); apply quiet_some|intros; apply (atan_quiet L value EX fuel); lia]
        |apply (calm_trig_checked L value EX); first [apply (sin_quiet L value EX)|apply (cos_quiet L value EX)|apply (tan_quiet L value EX)]]]|]).
    destruct Hi. }
  assert (OU : forall u, eq_ignore_case E u (lit "!") = false -> calls_safely (to_ctx E d) (TUnary u)).
  { intros u Hu f x w' Hg. apply (dec_un_found L fuel rnd E dbg cf d Hd) in Hg. destruct Hg as [Hi Hn].
    destruct Hi as [<-|[<-|[<-|[]]]]; [discriminate|discriminate|]. cbn [x_fact unop uf_name] in Hn. congruence. }
  auto.
Qed.

(** All other functions and the operators but [^] and [!] never panic, nor do expressions of them. *)
Theorem C53_never_panics : forall D W (L : dlib D) value, exact_decimals L value -> forall fuel (rnd : W -> f64 * W) E dbg cf d, decimal_context L fuel rnd E dbg cf = Ok d -> (40 <= fuel)%nat ->
  forall toks w,
  (forall f, In (TFunction f) toks -> forall g, In g may_panic -> eq_ignore_case E f (lit g) = false) ->
  (forall u, In (TUnary u) toks -> eq_ignore_case E u (lit "!") = false) ->
  (forall o, In (TBinary o) toks -> eq_ignore_case E o (lit "^") = false) ->
  fst (eval_tokens (to_ctx E d) dbg toks w) <> Panic.
Proof.
  intros D W L value EX fuel rnd E dbg cf d Hd Hf toks w HF HU HB. destruct (decimal_safe D W L value EX fuel rnd E dbg cf d Hd Hf) as (OF & OU & OB).
  apply eval_no_panic.
  - apply Forall_forall. intros t Ht. destruct t; try exact I; auto.
  - intros _. apply OB. unfold eq_ignore_case. reflexivity.
Qed.
Print Assumptions C53_never_panics.

(** The others do panic: where a result is out of range or a divisor is zero. *)
Theorem C53_panics_refuted : forall D W (L : dlib D) value, exact_decimals L value -> forall fuel (rnd : W -> f64 * W) E dbg cf d, decimal_context L fuel rnd E dbg cf = Ok d ->
  forall x w,
  ((inject_Z limit <= Qabs (value x) * 57)%Q -> apply_function (to_ctx E d) (lit "to_degrees") [x] w = (Panic, w)) /\
  ((inject_Z limit <= value x * value x)%Q -> apply_function (to_ctx E d) (lit "asinh") [x] w = (Panic, w) /\ ((1 <= value x)%Q -> apply_function (to_ctx E d) (lit "acosh") [x] w = (Panic, w))) /\
  ((value x == 0)%Q -> apply_function (to_ctx E d) (lit "acsc") [x] w = (Panic, w) /\ apply_function (to_ctx E d) (lit "asec") [x] w = (Panic, w)) /\
  ((value x == 1)%Q -> apply_function (to_ctx E d) (lit "atanh") [x] w = (Panic, w) /\ apply_function (to_ctx E d) (lit "acoth") [x] w = (Panic, w)).
Proof.
  intros D W L value EX fuel rnd E dbg cf d Hd x w. unfold apply_function. fn 16%nat (@fwd_checked D W "to_degrees"%string (to_degrees L)) "to_degrees"%string.
  fn 35%nat (@fwd_checked D W "asinh"%string (asinh L fuel)) "asinh"%string. fn 36%nat (@fwd_checked D W "acosh"%string (acosh L fuel)) "acosh"%string.
  fn 26%nat (@arc_rec_checked D W L "acsc"%string (asin L fuel)) "acsc"%string. fn 27%nat (@arc_rec_checked D W L "asec"%string (acos L fuel)) "asec"%string.
  fn 37%nat (@fwd_checked D W "atanh"%string (atanh L fuel)) "atanh"%string. fn 40%nat (@fwd_checked_inv D W L "acoth"%string (atanh L fuel)) "acoth"%string.
  cbn [fwd_checked fwd_checked_inv arc_rec_checked fun_ fn_call]. unfold lift, one_arg. pose proof (one_val L value EX) as V1. pose proof (minus_val L value EX) as VM.
  repeat match goal with |- _ /\ _ => split end; intros Hx.
  - unfold to_degrees. pose proof (pi_val L value EX) as P. assert (V : (value (int L 180) == 180)%Q) by (apply (lit_val L value EX); reflexivity).
    assert (N0 : ~ (value (cPI L) == 0)%Q) by (rewrite P; discriminate).
    destruct (bounded value _ _ 58 (ed_div _ _ EX (int L 180) (cPI L) N0)) as (c & C1 & _ & C2); [rewrite P, V; discriminate|discriminate|].
    assert (C57 : (57 <= Qabs (value c))%Q).
    { assert (Q1 : (57 + (1 # 10) <= value (int L 180) / value (cPI L))%Q) by (rewrite P, V; discriminate). unfold eps in C2. rewrite abs_le in C2. pose proof (Qle_Qabs (value c)). lra. }
    unfold d_div. rewrite C1. cbn [must]. unfold d_mul. rewrite (computes_over value _ _ (ed_mul _ _ EX x c)); [reflexivity|]. rewrite Qabs_Qmult. eapply Qle_trans; [exact Hx|].
    rewrite !(Qmult_comm (Qabs (value x))). apply Qmult_le_compat_r; [exact C57|apply Qabs_nonneg].
  - assert (O : (inject_Z limit <= Qabs (value x * value x))%Q) by (eapply Qle_trans; [exact Hx|apply Qle_Qabs]). unfold asinh, acosh, d_mul.
    rewrite (computes_over value _ _ (ed_mul _ _ EX x x) O). split; [reflexivity|]. intros H1. assert (B : d_lt L x (ONE L) = false) by (apply (d_lt_false L value EX); rewrite V1; exact H1). rewrite B. reflexivity.
  - unfold inv, d_div. rewrite (ed_div_zero _ _ EX (ONE L) x Hx). split; reflexivity.
  - unfold atanh. assert (B : d_lt L x (ONE_MINUS L) || d_gt L x (ONE L) = false). { apply orb_false_iff. split; [apply (d_lt_false L value EX); rewrite VM, Hx; discriminate|apply (d_gt_false L value EX); rewrite V1, Hx; discriminate]. } rewrite B.
    destruct (computes_exact value _ _ (ed_add _ _ EX (ONE L) x)) as (x0 & X1 & X2); [apply (rep_comp (inject_Z 2)); [rewrite V1, Hx; reflexivity|apply int_rep; reflexivity]|]. unfold d_add. rewrite X1. cbn [must].
    destruct (computes_exact value _ _ (ed_sub _ _ EX (ONE L) x)) as (x1 & Y1 & Y2); [apply (rep_comp (inject_Z 0)); [rewrite V1, Hx; reflexivity|apply int_rep; reflexivity]|]. unfold d_sub. rewrite Y1. cbn [must].
    unfold d_div. rewrite (ed_div_zero _ _ EX x0 x1); [split; reflexivity|]. rewrite Y2, V1, Hx. reflexivity.
Qed.
Print Assumptions C53_panics_refuted.

(** With the reference implementation of decimals: the cube root of 0 is an error, that of 8 is not 2; [exp] of a large number is
    negative, not an overflow; [asin] and [acos], whose results are angles in radians, take their argument for an angle in degrees;
    [acsch(0)] panics. *)
Theorem C52_functions_refuted : exists D (L : dlib D) value, exact_decimals L value /\ exists d, decimal_context L 200 no_random std_env true implicit_config = Ok d /\
  exists zero one eight big, ((value zero == 0)%Q /\ (value one == 1)%Q /\ (value eight == 8)%Q /\ (value big == 1000)%Q) /\
  let F := fun (f : string) x => apply_function (to_ctx std_env d) (lit f) [x] tt in
  F "cbrt"%string zero = (Err Overflow, tt) /\ (exists y, F "cbrt"%string eight = (Ok y, tt) /\ ~ (value y == 2)%Q) /\
  (exists y, F "exp"%string big = (Ok y, tt) /\ (value y < 0)%Q) /\
  (exists y, F "asin"%string one = (Ok y, tt) /\ (value y < 2 # 100)%Q) /\ (exists y, F "acos"%string one = (Ok y, tt) /\ (155 # 100 < value y)%Q) /\
  F "acsch"%string zero = (Panic, tt).
Proof.
  exists dec, ref_lib, val. split; [exact ref_exact|]. exists ref_d. split; [exact ref_is|]. exists (num 0 0), (num 1 0), (num 8 0), (num 1000 0).
  split; [repeat split; reflexivity|]. cbv zeta. fold ref_ctx.
  assert (R : forall f x, apply_function ref_ctx (lit f) [x] tt = (fst (apply_function ref_ctx (lit f) [x] tt), tt)) by (intros; rewrite (surjective_pairing (apply_function _ _ _ _)) at 1; destruct (snd _); reflexivity).
  assert (S : forall f x (P : Q -> bool), match shown (apply_function ref_ctx (lit f) [x] tt) with Ok q => P q | _ => false end = true -> exists y, apply_function ref_ctx (lit f) [x] tt = (Ok y, tt) /\ P (Qred (val y)) = true).
  { intros f x P H. rewrite R. unfold shown in H. destruct (fst (apply_function ref_ctx (lit f) [x] tt)) as [y|k|]; try discriminate. exists y. split; [reflexivity|exact H]. }
  assert (G : forall f x k, shown (apply_function ref_ctx (lit f) [x] tt) = Err k -> apply_function ref_ctx (lit f) [x] tt = (Err k, tt)).
  { intros f x k H. rewrite R. unfold shown in H. destruct (fst (apply_function ref_ctx (lit f) [x] tt)) as [y|k'|]; try discriminate. injection H as ->. reflexivity. }
  assert (PN : forall f x, shown (apply_function ref_ctx (lit f) [x] tt) = Panic -> apply_function ref_ctx (lit f) [x] tt = (Panic, tt)).
  { intros f x H. rewrite R. unfold shown in H. destruct (fst (apply_function ref_ctx (lit f) [x] tt)) as [y|k'|]; try discriminate. reflexivity. }
  assert (LT : forall a b, negb (Qle_bool b a) = true -> (a < b)%Q). { intros a b H. destruct (Qlt_le_dec a b) as [A|A]; [exact A|]. apply Qle_bool_iff in A. rewrite A in H. discriminate. }
  repeat match goal with |- _ /\ _ => split end.
  - apply G. vm_compute. reflexivity.
  - destruct (S "cbrt"%string (num 8 0) (fun q => negb (Qeq_bool q 2))) as (y & Y1 & Y2); [vm_compute; reflexivity|]. exists y. split; [exact Y1|]. rewrite Qred_correct in Y2. intros H. apply Qeq_bool_iff in H. rewrite H in Y2. discriminate.
  - destruct (S "exp"%string (num 1000 0) (fun q => negb (Qle_bool 0 q))) as (y & Y1 & Y2); [vm_compute; reflexivity|]. exists y. split; [exact Y1|]. apply LT in Y2. rewrite Qred_correct in Y2. exact Y2.
  - destruct (S "asin"%string (num 1 0) (fun q => negb (Qle_bool (2 # 100) q))) as (y & Y1 & Y2); [vm_compute; reflexivity|]. exists y. split; [exact Y1|]. apply LT in Y2. rewrite Qred_correct in Y2. exact Y2.
  - destruct (S "acos"%string (num 1 0) (fun q => negb (Qle_bool q (155 # 100)))) as (y & Y1 & Y2); [vm_compute; reflexivity|]. exists y. split; [exact Y1|]. apply LT in Y2. rewrite Qred_correct in Y2. exact Y2.
  - apply PN. vm_compute. reflexivity.
Qed.
Print Assumptions C52_functions_refuted.

(** The hypotheses are met: values of the functions with the reference implementation; an expression to which C53 applies. *)
Example C52_case : ref_fun "ceil" [num (-25) 1] = Ok (-2)%Q /\ ref_fun "floor" [num (-25) 1] = Ok (-3)%Q /\ ref_fun "truncate" [num (-25) 1] = Ok (-2)%Q /\ ref_fun "round" [num 26 1] = Ok 3%Q /\
  ref_fun "sqrt" [num 16 0] = Ok 4%Q /\ ref_fun "sqrt" [num 2 0] = Ok (7071067811865475244008443621 # 5000000000000000000000000000)%Q /\ ref_fun "sqrt" [num (-1) 0] = Err Overflow /\
  ref_fun "log" [num 10 0] = Ok 1%Q /\ ref_fun "csc" [num 30 0] = ref_fun "sin" [num 30 0] /\ ref_fun "sin" [num 90 0] = Ok 1%Q.
Proof. repeat match goal with |- _ /\ _ => split end; vm_compute; reflexivity. Qed.
Definition C53_tokens : list (token dec) := [TFunction (lit "tan"); TOpen 40%N; TFunction (lit "cos"); TOpen 40%N; TNumber (num 60 0); TClose 41%N; TBinary (lit "/"); TNumber (num 0 0); TClose 41%N].
Example C53_case : (forall f, In (TFunction f) C53_tokens -> forall g, In g may_panic -> eq_ignore_case std_env f (lit g) = false) /\
  shown (eval_tokens ref_ctx true C53_tokens tt) = Err Overflow /\ ref_fun "asec" [num 0 0] = Panic.
Proof.
  split; [|split; vm_compute; reflexivity]. intros f [H|[H|[H|[H|[H|[H|[H|[H|[H|[]]]]]]]]]]; try discriminate; injection H as <-; apply Forall_forall; vm_compute; repeat constructor.
Qed.
