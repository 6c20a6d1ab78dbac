(** * The functions of decimal contexts in terms of one another (C33, C52) *)
From Coq Require Import List NArith ZArith QArith Qabs Qround Qpower Bool Lia Lqa String.
From Verif Require Import ModelBase ModelContext ModelEvaluator ModelText ModelDefault ModelFloat ModelNum ModelOps ModelStd ModelDecimal
  SpecText SpecExpr SpecTokens SpecOps SpecDecimal ProofText ProofDefault ProofRpn ProofTokens2 ProofBuild ProofCtx ProofWf ProofOps3 ProofDecRef ProofDecimal ProofDecimal2 ProofDecTrig ProofDecFun ProofDecFun2 PropDecimal PropDecimal2.
Import ListNotations.
Local Open Scope Z_scope.

Lemma bin_is : forall D W (L : dlib D) fuel (rnd : W -> f64 * W) E dbg cf d, decimal_context L fuel rnd E dbg cf = Ok d -> forall x y w,
  apply_binary (to_ctx E d) (lit "+") x y w = (or_over (opt (d_cadd L x y)), w) /\ apply_binary (to_ctx E d) (lit "-") x y w = (or_over (opt (d_csub L x y)), w) /\
  apply_binary (to_ctx E d) (lit "*") x y w = (or_over (opt (d_cmul L x y)), w) /\ apply_binary (to_ctx E d) (lit "/") x y w = (or_over (opt (d_cdiv L x y)), w).
Proof.
  intros D W L fuel rnd E dbg cf d Hd x y w. unfold apply_binary.
  rewrite (dec_bin L fuel rnd E dbg cf d Hd 0 _ (lit "+") eq_refl (alike_refl _)), (dec_bin L fuel rnd E dbg cf d Hd 1 _ (lit "-") eq_refl (alike_refl _)),
    (dec_bin L fuel rnd E dbg cf d Hd 2 _ (lit "*") eq_refl (alike_refl _)), (dec_bin L fuel rnd E dbg cf d Hd 3 _ (lit "/") eq_refl (alike_refl _)). repeat split; reflexivity.
Qed.
Ltac ops Hd := match type of Hd with decimal_context ?L ?fuel ?rnd ?E ?dbg ?cf = Ok ?d => destruct (bin_is _ _ L fuel rnd E dbg cf d Hd (ZERO L) (ZERO L)) end.
Lemma or_over_ok : forall D (m : @O D) (y : D), or_over m = Ok y -> m = Ok (Some y).
Proof. intros D m y H. destruct m as [[z|]|k|]; cbn [or_over] in H; congruence. Qed.

Lemma fun_ok : forall D W (m : @O D) (y : D) (w w' : W), (or_over m, w) = (Ok y, w') -> m = Ok (Some y).
Proof. intros D W m y w w' H. apply or_over_ok. congruence. Qed.
Lemma op_ok : forall D W (o : option D) (y : D) (w w' : W), (or_over (opt o), w) = (Ok y, w') -> o = Some y.
Proof. intros D W o y w w' H. destruct o; cbn [or_over opt] in H; congruence. Qed.

(** The reciprocal of a decimal is in range. *)
Lemma inverse_bound : forall D (L : dlib D) value, exact_decimals L value -> forall x, ~ (value x == 0)%Q -> (Qabs (1 / value x) <= inject_Z (10 ^ 28))%Q.
Proof.
  intros D L value EX x N0.
  assert (AQ : (Qabs (1 / value x) * Qabs (value x) == 1)%Q). { rewrite <- Qabs_Qmult. setoid_replace (1 / value x * value x)%Q with 1%Q by (field; exact N0). reflexivity. }
  pose proof (ed_representable _ _ EX x) as (c0 & s0 & S0 & _ & R0).
  assert (P0 : (0 < inject_Z (10 ^ s0))%Q) by (change 0%Q with (inject_Z 0); rewrite <- Zlt_Qlt; apply Z.pow_pos_nonneg; lia).
  assert (T : (Qabs (value x) * inject_Z (10 ^ s0) == inject_Z (Z.abs c0))%Q). { rewrite <- (Qabs_pos (inject_Z (10 ^ s0))) at 1 by lra. rewrite <- Qabs_Qmult, R0. reflexivity. }
  assert (C1 : 1 <= Z.abs c0). { destruct (Z.eq_dec c0 0) as [->|]; [|lia]. exfalso. apply N0. change (inject_Z 0) with 0%Q in R0. apply Qmult_integral in R0. destruct R0 as [R0|R0]; [exact R0|lra]. }
  assert (T2 : (1 <= Qabs (value x) * inject_Z (10 ^ 28))%Q). { apply Qle_trans with (Qabs (value x) * inject_Z (10 ^ s0))%Q; [rewrite T; change 1%Q with (inject_Z 1); rewrite <- Zle_Qle; exact C1|]. rewrite !(Qmult_comm (Qabs (value x))). apply Qmult_le_compat_r; [|apply Qabs_nonneg]. rewrite <- Zle_Qle. apply Z.pow_le_mono_r; lia. }
  pose proof (Qabs_nonneg (1 / value x)). set (a := Qabs (1 / value x)) in *. set (b := Qabs (value x)) in *. set (k := inject_Z (10 ^ 28)) in *. clearbody a b k. nra.
Qed.

(** The power with an exponent that is not an integer is exp(e ln x), for bases other than 0, 1 and the constant E (then it
    is exp(e)). *)
Theorem C33_exponential : forall D W (L : dlib D) value, exact_decimals L value -> forall fuel (rnd : W -> f64 * W) E dbg cf d, decimal_context L fuel rnd E dbg cf = Ok d ->
  forall x e w, (forall n, ~ (value e == inject_Z n)%Q) -> ~ (value x == 0)%Q -> ~ (value x == 1)%Q ->
  let pow := apply_binary (to_ctx E d) (lit "^") x e w in
  let F := fun f a => apply_function (to_ctx E d) (lit f) [a] w in
  ((value x == 27182818284590452353602874714 # 10000000000000000000000000000)%Q -> pow = F "exp"%string e) /\
  (~ (value x == 27182818284590452353602874714 # 10000000000000000000000000000)%Q ->
     (forall l p, F "ln"%string x = (Ok l, w) -> apply_binary (to_ctx E d) (lit "*") l e w = (Ok p, w) -> pow = F "exp"%string p) /\
     (forall k, F "ln"%string x = (Err k, w) -> pow = (Err k, w)) /\
     (forall l k, F "ln"%string x = (Ok l, w) -> apply_binary (to_ctx E d) (lit "*") l e w = (Err k, w) -> pow = (Err k, w))).
Proof.
  intros D W L value EX fuel rnd E dbg cf d Hd x e w He H0 H1 pow F. unfold pow, F. rewrite (pow_is D W L fuel rnd E dbg cf d Hd).
  assert (I : is_integer L e = false). { apply not_true_iff_false. rewrite (is_integer_iff L value EX). intros (z & Z). exact (He z Z). }
  assert (B0 : is_zero L x = false) by (apply not_true_iff_false; rewrite (is_zero_iff L value EX); exact H0).
  assert (B1 : is_one L x = false) by (apply not_true_iff_false; rewrite (is_one_iff L value EX); exact H1).
  assert (EV : (value (cE L) == 27182818284590452353602874714 # 10000000000000000000000000000)%Q) by (apply (lit28 L value EX); reflexivity).
  unfold apply_function. fn 7%nat (@fwd_checked D W "ln"%string (checked_ln L fuel)) "ln"%string. fn 14%nat (@fwd_checked D W "exp"%string (checked_exp L)) "exp"%string.
  cbn [fwd_checked fun_ fn_call]. unfold lift, one_arg, pow_of, checked_powd. rewrite I, B0, B1. split; intros HE.
  - assert (X : d_eq L x (cE L) = true) by (apply (d_eq_iff L value EX); rewrite EV; exact HE). rewrite X. reflexivity.
  - assert (X : d_eq L x (cE L) = false) by (apply (d_eq_false L value EX); rewrite EV; exact HE). rewrite X.
    split; [|split].
    + intros l p Hl Hp. apply fun_ok in Hl. rewrite Hl. cbn [ModelDecimal.call]. rewrite (proj1 (proj2 (proj2 (bin_is D W L fuel rnd E dbg cf d Hd l e w)))) in Hp.
      apply op_ok in Hp. unfold d_mul. rewrite Hp. reflexivity.
    + intros k Hk. destruct (checked_ln L fuel x) as [[l|]|k'|]; cbn [or_over] in Hk; try discriminate; injection Hk as <-; reflexivity.
    + intros l k Hl Hk. apply fun_ok in Hl. rewrite Hl. cbn [ModelDecimal.call]. rewrite (proj1 (proj2 (proj2 (bin_is D W L fuel rnd E dbg cf d Hd l e w)))) in Hk.
      unfold d_mul. destruct (d_cmul L l e) as [p|]; [discriminate Hk|]. injection Hk as <-. reflexivity.
Qed.
Print Assumptions C33_exponential.

(** Logarithms: [log(x, b)] is ln x / ln b, [log(x)] and [log(x, 10)] are ln x divided by the constant ln 10. *)
Theorem C52_logarithms : forall D W (L : dlib D) value, exact_decimals L value -> forall fuel (rnd : W -> f64 * W) E dbg cf d, decimal_context L fuel rnd E dbg cf = Ok d ->
  forall x b w l, apply_function (to_ctx E d) (lit "ln") [x] w = (Ok l, w) ->
  (exists c, (value c == 23025850929940456840179914546 # 10000000000000000000000000000)%Q /\ apply_function (to_ctx E d) (lit "log") [x] w = apply_binary (to_ctx E d) (lit "/") l c w /\
     ((value b == 10)%Q -> apply_function (to_ctx E d) (lit "log") [x; b] w = apply_binary (to_ctx E d) (lit "/") l c w)) /\
  (~ (value b == 10)%Q -> (forall m, apply_function (to_ctx E d) (lit "ln") [b] w = (Ok m, w) -> apply_function (to_ctx E d) (lit "log") [x; b] w = apply_binary (to_ctx E d) (lit "/") l m w) /\
                          (forall k, apply_function (to_ctx E d) (lit "ln") [b] w = (Err k, w) -> apply_function (to_ctx E d) (lit "log") [x; b] w = (Err k, w))).
Proof.
  intros D W L value EX fuel rnd E dbg cf d Hd x b w l. unfold apply_function. fn 7%nat (@fwd_checked D W "ln"%string (checked_ln L fuel)) "ln"%string. fn 8%nat (@x_log D W L fuel) "log"%string.
  cbn [fwd_checked x_log fun_ fn_call]. unfold lift, one_arg. intros Hl. apply fun_ok in Hl. unfold checked_log. rewrite Hl. cbn [ModelDecimal.call].
  pose proof (ten_val L value EX) as VT. split.
  - exists (LN_10 L). split; [apply (lit28 L value EX); reflexivity|]. rewrite (proj2 (proj2 (proj2 (bin_is D W L fuel rnd E dbg cf d Hd l (LN_10 L) w)))).
    assert (T : d_eq L (TEN L) (TEN L) = true) by (apply (d_eq_iff L value EX); reflexivity). rewrite T. split; [unfold ask, d_div; destruct (d_cdiv L l (LN_10 L)); reflexivity|]. intros Hb.
    assert (TB : d_eq L b (TEN L) = true) by (apply (d_eq_iff L value EX); rewrite VT; exact Hb). rewrite TB. unfold ask, d_div. destruct (d_cdiv L l (LN_10 L)); reflexivity.
  - intros Hb. assert (TB : d_eq L b (TEN L) = false) by (apply (d_eq_false L value EX); rewrite VT; exact Hb). rewrite TB. split.
    + intros m Hm. apply fun_ok in Hm. rewrite Hm. cbn [ModelDecimal.call]. rewrite (proj2 (proj2 (proj2 (bin_is D W L fuel rnd E dbg cf d Hd l m w)))). unfold ask, d_div. destruct (d_cdiv L l m); reflexivity.
    + intros k Hk. destruct (checked_ln L fuel b) as [[m|]|k'|]; cbn [or_over] in Hk; try discriminate; injection Hk as <-; reflexivity.
Qed.
Print Assumptions C52_logarithms.

(** Hyperbolic functions: half the sum and half the difference of exp(x) and exp(-x), their quotient, and the reciprocals of
    these; where an operation of these formulas is out of range there is a panic. *)
Definition panics_or {D W} (r : res D * W) : res D * W := match r with (Err _, w) => (Panic, w) | r => r end.
Theorem C52_hyperbolic : forall D W (L : dlib D) value, exact_decimals L value -> forall fuel (rnd : W -> f64 * W) E dbg cf d, decimal_context L fuel rnd E dbg cf = Ok d ->
  forall x y a b w, apply_unary (to_ctx E d) (lit "-") x w = (Ok y, w) ->
  let F := fun f a => apply_function (to_ctx E d) (lit f) [a] w in let B := fun o a b => apply_binary (to_ctx E d) (lit o) a b w in
  F "exp"%string x = (Ok a, w) -> F "exp"%string y = (Ok b, w) ->
  (forall s, B "-"%string a b = (Ok s, w) -> exists two', (value two' == 2)%Q /\ F "sinh"%string x = panics_or (B "/"%string s two')) /\
  (forall s, B "+"%string a b = (Ok s, w) -> exists two', (value two' == 2)%Q /\ F "cosh"%string x = panics_or (B "/"%string s two')) /\
  (forall s c, F "sinh"%string x = (Ok s, w) -> F "cosh"%string x = (Ok c, w) -> F "tanh"%string x = panics_or (B "/"%string s c)) /\
  (forall f g, In (f, g) [("sinh", "csch"); ("cosh", "sech"); ("tanh", "coth")]%string -> forall v, F f x = (Ok v, w) ->
     ((value v == 0)%Q -> F g x = (Err Overflow, w)) /\ (~ (value v == 0)%Q -> exists one, (value one == 1)%Q /\ F g x = panics_or (B "/"%string one v))).
Proof.
  intros D W L value EX fuel rnd E dbg cf d Hd x y a b w Hy F B Ha Hb. unfold F in *.
  assert (BI : forall o u v, B o u v = apply_binary (to_ctx E d) (lit o) u v w) by reflexivity.
  unfold apply_unary in Hy. rewrite (dec_un L fuel rnd E dbg cf d Hd 1 _ (lit "-") eq_refl (alike_refl _)) in Hy. injection Hy as <-.
  unfold apply_function in *. revert Ha Hb. fn 14%nat (@fwd_checked D W "exp"%string (checked_exp L)) "exp"%string. fn 29%nat (@fwd_checked D W "sinh"%string (sinh L)) "sinh"%string.
  fn 30%nat (@fwd_checked D W "cosh"%string (cosh L)) "cosh"%string. fn 31%nat (@fwd_checked D W "tanh"%string (tanh L)) "tanh"%string.
  cbn [fwd_checked fun_ fn_call]. unfold lift, one_arg. intros Ha Hb. apply fun_ok in Ha. apply fun_ok in Hb.
  pose proof (bin_is D W L fuel rnd E dbg cf d Hd) as BN. split; [|split; [|split]].
  - intros s Hs. rewrite BI, (proj1 (proj2 (BN a b w))) in Hs. apply op_ok in Hs. exists (TWO L). split; [apply (two_val L value EX)|].
    rewrite BI, (proj2 (proj2 (proj2 (BN s (TWO L) w)))). unfold sinh. rewrite Ha. cbn [ModelDecimal.call]. rewrite Hb. cbn [ModelDecimal.call]. unfold must, d_sub, d_div. rewrite Hs. destruct (d_cdiv L s (TWO L)); reflexivity.
  - intros s Hs. rewrite BI, (proj1 (BN a b w)) in Hs. apply op_ok in Hs. exists (TWO L). split; [apply (two_val L value EX)|].
    rewrite BI, (proj2 (proj2 (proj2 (BN s (TWO L) w)))). unfold cosh. rewrite Ha. cbn [ModelDecimal.call]. rewrite Hb. cbn [ModelDecimal.call]. unfold must, d_add, d_div. rewrite Hs. destruct (d_cdiv L s (TWO L)); reflexivity.
  - intros s c' Hs Hc. apply fun_ok in Hs. apply fun_ok in Hc. rewrite BI, (proj2 (proj2 (proj2 (BN s c' w)))). unfold tanh. rewrite Hs. cbn [ModelDecimal.call]. rewrite Hc. cbn [ModelDecimal.call].
    unfold must, d_div. destruct (d_cdiv L s c'); reflexivity.
  - assert (G : forall m v, or_over (m x) = Ok v -> ((value v == 0)%Q -> (or_over (ModelDecimal.call (m x) (ModelDecimal.checked_inv L)), w) = (Err Overflow, w)) /\
      (~ (value v == 0)%Q -> exists one, (value one == 1)%Q /\ (or_over (ModelDecimal.call (m x) (ModelDecimal.checked_inv L)), w) = panics_or (B "/"%string one v))).
    { intros m v Hv. apply or_over_ok in Hv. rewrite Hv. cbn [ModelDecimal.call]. unfold ModelDecimal.checked_inv. split; intros H.
      - apply (is_zero_iff L value EX) in H. rewrite H. reflexivity.
      - assert (Z : is_zero L v = false) by (apply not_true_iff_false; rewrite (is_zero_iff L value EX); exact H). rewrite Z. exists (ONE L). split; [apply (one_val L value EX)|].
        rewrite BI, (proj2 (proj2 (proj2 (BN (ONE L) v w)))). unfold inv, must, d_div. destruct (d_cdiv L (ONE L) v); reflexivity. }
    intros f g [H|[H|[H|[]]]] v; injection H as <- <-.
    + fn 29%nat (@fwd_checked D W "sinh"%string (sinh L)) "sinh"%string. fn 32%nat (@fwd_checked_inv D W L "csch"%string (sinh L)) "csch"%string. cbn [fwd_checked fwd_checked_inv fun_ fn_call]. unfold lift, one_arg. intros Hv. injection Hv as Hv. apply G. exact Hv.
    + fn 30%nat (@fwd_checked D W "cosh"%string (cosh L)) "cosh"%string. fn 33%nat (@fwd_checked_inv D W L "sech"%string (cosh L)) "sech"%string. cbn [fwd_checked fwd_checked_inv fun_ fn_call]. unfold lift, one_arg. intros Hv. injection Hv as Hv. apply G. exact Hv.
    + fn 31%nat (@fwd_checked D W "tanh"%string (tanh L)) "tanh"%string. fn 34%nat (@fwd_checked_inv D W L "coth"%string (tanh L)) "coth"%string. cbn [fwd_checked fwd_checked_inv fun_ fn_call]. unfold lift, one_arg. intros Hv. injection Hv as Hv. apply G. exact Hv.
Qed.
Print Assumptions C52_hyperbolic.

(** [acsc] and [asec] (in radians, unlike [asin] and [acos], whose argument is first taken for degrees): defined for
    1/x from -1 to 1; at 1 and -1 they are pi/2, -pi/2, 0 and pi to 28 digits. *)
Theorem C52_arc : forall D W (L : dlib D) value, exact_decimals L value -> forall fuel (rnd : W -> f64 * W) E dbg cf d, decimal_context L fuel rnd E dbg cf = Ok d ->
  forall x w, let F := fun f => apply_function (to_ctx E d) (lit f) [x] w in
  ((0 < Qabs (value x) /\ Qabs (value x) <= 9 # 10)%Q -> F "acsc"%string = (Err Overflow, w) /\ F "asec"%string = (Err Overflow, w)) /\
  ((value x == 1)%Q -> (exists y, F "acsc"%string = (Ok y, w) /\ (value y == 15707963267948966192313216916 # 10000000000000000000000000000)%Q) /\ (exists y, F "asec"%string = (Ok y, w) /\ (value y == 0)%Q)) /\
  ((value x == -1)%Q -> (exists y, F "acsc"%string = (Ok y, w) /\ (value y == - (15707963267948966192313216916 # 10000000000000000000000000000))%Q) /\
                        (exists y, F "asec"%string = (Ok y, w) /\ (value y == 31415926535897932384626433833 # 10000000000000000000000000000)%Q)) /\
  (forall r, apply_function (to_ctx E d) (lit "to_radians") [x] w = (Ok r, w) ->
     ((1 < Qabs (value r))%Q -> F "asin"%string = (Err Overflow, w) /\ F "acos"%string = (Err Overflow, w)) /\
     ((value r == 0)%Q -> (exists y, F "asin"%string = (Ok y, w) /\ (value y == 0)%Q) /\ (exists y, F "acos"%string = (Ok y, w) /\ (value y == 15707963267948966192313216916 # 10000000000000000000000000000)%Q))).
Proof.
  intros D W L value EX fuel rnd E dbg cf d Hd x w F. unfold F, apply_function.
  fn 26%nat (@arc_rec_checked D W L "acsc"%string (asin L fuel)) "acsc"%string. fn 27%nat (@arc_rec_checked D W L "asec"%string (acos L fuel)) "asec"%string.
  fn 15%nat (@fwd_checked D W "to_radians"%string (to_radians L)) "to_radians"%string. fn 23%nat (@trig_checked D W L "asin"%string (asin L fuel)) "asin"%string. fn 24%nat (@trig_checked D W L "acos"%string (acos L fuel)) "acos"%string.
  cbn [arc_rec_checked fwd_checked trig_checked fun_ fn_call]. unfold lift, one_arg.
  pose proof (one_val L value EX) as V1. pose proof (zero_val L value EX) as V0. pose proof (minus_val L value EX) as VM.
  assert (P2 : (value (PI_FRACT_2 L) == 15707963267948966192313216916 # 10000000000000000000000000000)%Q) by (apply (lit28 L value EX); reflexivity).
  assert (P1 : (value (cPI L) == 31415926535897932384626433833 # 10000000000000000000000000000)%Q) by (apply (lit28 L value EX); reflexivity).
  assert (OUT : forall r, (1 < Qabs (value r))%Q -> asin L fuel r = none /\ acos L fuel r = none).
  { intros r Hr. assert (X : d_lt L r (ONE_MINUS L) || d_gt L r (ONE L) = true).
    { apply orb_true_iff. rewrite (d_lt_iff L value EX), (d_gt_iff L value EX), V1, VM. destruct (Qlt_le_dec (value r) 0) as [N|N]; [rewrite Qabs_neg in Hr by lra; left; lra|rewrite Qabs_pos in Hr by lra; right; lra]. }
    unfold asin, acos. rewrite X. split; reflexivity. }
  assert (IN : forall r, (Qabs (value r) <= 1)%Q -> d_lt L r (ONE_MINUS L) || d_gt L r (ONE L) = false).
  { intros r Hr. apply orb_false_iff. rewrite (d_lt_false L value EX), (d_gt_false L value EX), V1, VM. apply Qabs_Qle_condition in Hr. exact (conj (proj1 Hr) (proj2 Hr)). }
  assert (AT0 : forall r, (value r == 0)%Q -> asin L fuel r = some (ZERO L) /\ acos L fuel r = some (PI_FRACT_2 L)).
  { intros r Hr. assert (X := IN r ltac:(rewrite Hr; discriminate)). apply (is_zero_iff L value EX) in Hr. unfold asin, acos. rewrite X, Hr. split; reflexivity. }
  assert (AT1 : forall r, (value r == 1)%Q -> asin L fuel r = some (PI_FRACT_2 L) /\ acos L fuel r = some (ZERO L)).
  { intros r Hr. assert (X := IN r ltac:(rewrite Hr; discriminate)). assert (Z : is_zero L r = false) by (apply not_true_iff_false; rewrite (is_zero_iff L value EX), Hr; discriminate).
    apply (is_one_iff L value EX) in Hr. unfold asin, acos. rewrite X, Z, Hr. split; reflexivity. }
  assert (ATM : forall r, (value r == -1)%Q -> asin L fuel r = some (d_neg L (PI_FRACT_2 L)) /\ acos L fuel r = some (cPI L)).
  { intros r Hr. assert (X := IN r ltac:(rewrite Hr; discriminate)). assert (Z : is_zero L r = false) by (apply not_true_iff_false; rewrite (is_zero_iff L value EX), Hr; discriminate).
    assert (O1 : is_one L r = false) by (apply not_true_iff_false; rewrite (is_one_iff L value EX), Hr; discriminate). assert (M : d_eq L r (ONE_MINUS L) = true) by (apply (d_eq_iff L value EX); rewrite VM; exact Hr).
    unfold asin, acos. rewrite X, Z, O1, M. split; reflexivity. }
  split; [|split; [|split]].
  - intros [A0 A1]. assert (N0 : ~ (value x == 0)%Q) by (intros H; rewrite H in A0; discriminate A0).
    pose proof (inverse_bound D L value EX x N0) as B. pose proof (ed_div _ _ EX (ONE L) x N0) as (_ & _ & C).
    assert (EQ : (value (ONE L) / value x == 1 / value x)%Q) by (rewrite V1; reflexivity). rewrite EQ in C.
    assert (AQ : (Qabs (1 / value x) * Qabs (value x) == 1)%Q). { rewrite <- Qabs_Qmult. setoid_replace (1 / value x * value x)%Q with 1%Q by (field; exact N0). reflexivity. }
    assert (Q1 : (10 # 9 <= Qabs (1 / value x))%Q). { set (a := Qabs (1 / value x)) in *. set (b := Qabs (value x)) in *. clearbody a b. nra. }
    destruct C as (i & DI & C); [eapply Qle_trans; [exact B|rewrite <- Zle_Qle; vm_compute; discriminate]|].
    assert (HI : (1 < Qabs (value i))%Q).
    { pose proof (Qabs_triangle (value i) (1 / value x - value i)) as T. setoid_replace (value i + (1 / value x - value i))%Q with (1 / value x)%Q in T by ring. rewrite (Qabs_Qminus (1 / value x)) in T.
      destruct (Qlt_le_dec (Qabs (1 / value x)) 3) as [S|S].
      - specialize (C 2 ltac:(lia)). change (inject_Z (10 ^ 2)) with 100%Q in C. assert (H100 : (Qabs (value (ONE L) / value x) * 100 < inject_Z (2 ^ 95))%Q) by (rewrite EQ; apply Qlt_trans with 300%Q; [lra|reflexivity]). specialize (C H100). rewrite EQ in C. lra.
      - specialize (C 0 ltac:(lia)). change (inject_Z (10 ^ 0)) with 1%Q in C. assert (H1 : (Qabs (value (ONE L) / value x) * 1 < inject_Z (2 ^ 95))%Q) by (rewrite EQ, Qmult_1_r; eapply Qle_lt_trans; [exact B|rewrite <- Zlt_Qlt; reflexivity]). specialize (C H1). rewrite EQ in C. lra. }
    unfold inv, d_div. rewrite DI. cbn [must ModelDecimal.call some]. destruct (OUT i HI) as [-> ->]. split; reflexivity.
  - intros Hx. assert (N0 : ~ (value x == 0)%Q) by (rewrite Hx; discriminate). destruct (div_exact L value EX (ONE L) x 1 V1 N0) as (i & Di & Vi); [apply (rep_comp (inject_Z 1)); [rewrite Hx; reflexivity|apply int_rep; reflexivity]|].
    unfold inv. rewrite Di. cbn [must ModelDecimal.call some]. rewrite Hx in Vi. destruct (AT1 i Vi) as [-> ->]. split; eexists; (split; [reflexivity|assumption]).
  - intros Hx. assert (N0 : ~ (value x == 0)%Q) by (rewrite Hx; discriminate). destruct (div_exact L value EX (ONE L) x 1 V1 N0) as (i & Di & Vi); [apply (rep_comp (inject_Z (-1))); [rewrite Hx; reflexivity|apply int_rep; reflexivity]|].
    unfold inv. rewrite Di. cbn [must ModelDecimal.call some]. rewrite Hx in Vi. destruct (ATM i Vi) as [-> ->]. split; eexists; (split; [reflexivity|]); [rewrite (ed_neg _ _ EX), P2; reflexivity|assumption].
  - intros r Hr. apply fun_ok in Hr. rewrite Hr. cbn [ModelDecimal.call]. split; intros H.
    + destruct (OUT r H) as [-> ->]. split; reflexivity.
    + destruct (AT0 r H) as [-> ->]. split; eexists; (split; [reflexivity|assumption]).
Qed.
Print Assumptions C52_arc.

(** ** Cases, with the reference decimals *)
Definition is_ok {A W} (r : res A * W) : bool := match fst r with Ok _ => true | _ => false end.
Example C52_arc_case : is_ok (apply_function ref_ctx (lit "ln") [num 10 0] tt) = true /\ is_ok (apply_function ref_ctx (lit "exp") [num 5 1] tt) = true /\
  is_ok (apply_function ref_ctx (lit "sinh") [num 5 1] tt) = true /\ is_ok (apply_function ref_ctx (lit "tanh") [num 5 1] tt) = true /\
  is_ok (apply_binary ref_ctx (lit "^") (num 10 0) (num 5 1) tt) = true /\ is_ok (apply_function ref_ctx (lit "acsc") [num (-1) 0] tt) = true /\
  shown (apply_function ref_ctx (lit "acsc") [num 5 1] tt) = Err Overflow /\ is_ok (apply_function ref_ctx (lit "log") [num 100 0; num 10 0] tt) = true.
Proof. repeat match goal with |- _ /\ _ => split end; vm_compute; reflexivity. Qed.
