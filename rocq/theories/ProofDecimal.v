(** * Decimal contexts: what they contain, and their arithmetic *)
From Coq Require Import List NArith ZArith QArith Qabs Qround Qpower Bool Lia Lqa String.
From Verif Require Import ModelBase ModelContext ModelText ModelDefault ModelFloat ModelNum ModelOps ModelDecimal
  SpecText SpecExpr SpecDecimal ProofText ProofDefault ProofBuild ProofCtx.
Import ListNotations.
Local Open Scope Z_scope.

(** ** What the context contains *)
Section Ctx.
Context {D W : Type}.
Variable L : dlib D.
Variable fuel : nat.
Variable random : W -> f64 * W.
Variable E : env.
Variable dbg : bool.

Definition dec_bins : list (bfunc D W) := [x_add L; x_sub L; x_mul L; x_div L; x_pow L fuel; x_mod L].
Definition dec_uns : list (ufunc D W) := [op_plus; x_neg L; x_fact L fuel].
Definition dec_funs : list (func D W) :=
  [x_sum L; x_avg L; x_prod L; op_max (dec_num L fuel); op_min (dec_num L fuel); fwd_checked "cbrt" (checked_cbrt L); fwd_checked "sqrt" (checked_sqrt L fuel);
   fwd_checked "ln" (checked_ln L fuel); x_log L fuel; op_rand (dec_num L fuel) random; fwd "ceil" (d_ceil L); fwd "floor" (d_floor L);
   fwd "truncate" (d_trunc L); fwd "round" (d_round L); fwd_checked "exp" (checked_exp L);
   fwd_checked "to_radians" (to_radians L); fwd_checked "to_degrees" (to_degrees L);
   trig_checked L "sin" (checked_sin L); trig_checked L "cos" (checked_cos L); trig_checked L "tan" (checked_tan L);
   trig_checked L "csc" (checked_sin L); trig_checked L "sec" (checked_cos L); trig_checked L "cot" (checked_tan L);
   trig_checked L "asin" (asin L fuel); trig_checked L "acos" (acos L fuel); x_atan L fuel;
   arc_rec_checked L "acsc" (asin L fuel); arc_rec_checked L "asec" (acos L fuel); arc_rec "acot" (atan L fuel);
   fwd_checked "sinh" (sinh L); fwd_checked "cosh" (cosh L); fwd_checked "tanh" (tanh L);
   fwd_checked_inv L "csch" (sinh L); fwd_checked_inv L "sech" (cosh L); fwd_checked_inv L "coth" (tanh L);
   fwd_checked "asinh" (asinh L fuel); fwd_checked "acosh" (acosh L fuel); fwd_checked "atanh" (atanh L fuel);
   fwd_inv L "acsch" (asinh L fuel); fwd_checked_inv L "asech" (acosh L fuel); fwd_checked_inv L "acoth" (atanh L fuel)].

Definition the_ctx (cf : config) : dctx D W := ctx_of (cPI L) (cE L) dec_bins dec_uns dec_funs cf.
Lemma dec_names : steps_ok (steps_of (cPI L) (cE L) dec_bins dec_uns dec_funs) = true.
Proof. clear. vm_compute. reflexivity. Qed.
Lemma dec_steps_are : dec_steps L fuel random E dbg = map (perf E dbg) (steps_of (cPI L) (cE L) dec_bins dec_uns dec_funs).
Proof. reflexivity. Qed.
Lemma decimal_is : forall cf, decimal_context L fuel random E dbg cf = Ok (the_ctx cf).
Proof. intros cf. unfold decimal_context. rewrite dec_steps_are, build_ctx by apply dec_names. reflexivity. Qed.

Lemma bins_names : names_ok (map (fun f => (bf_name f, f)) dec_bins) = true. Proof. clear. vm_compute. reflexivity. Qed.
Lemma uns_names : names_ok (map (fun f => (uf_name f, f)) dec_uns) = true. Proof. clear. vm_compute. reflexivity. Qed.
Lemma funs_names : names_ok (map (fun f => (fn_name f, f)) dec_funs) = true. Proof. clear. vm_compute. reflexivity. Qed.

Variable cf : config.
Variable d : dctx D W.
Hypothesis Hd : decimal_context L fuel random E dbg cf = Ok d.
Notation c := (to_ctx E d).
Lemma dec_bin : forall i (f : bfunc D W) q, nth_error dec_bins i = Some f -> ascii_alike q (bf_name f) -> get_binary c q = Some f.
Proof. intros i f q Hi Hq. rewrite decimal_is in Hd. injection Hd as <-. eapply find_bin; [apply bins_names|exact Hi|exact Hq]. Qed.
Lemma dec_un : forall i (f : ufunc D W) q, nth_error dec_uns i = Some f -> ascii_alike q (uf_name f) -> get_unary c q = Some f.
Proof. intros i f q Hi Hq. rewrite decimal_is in Hd. injection Hd as <-. eapply find_un; [apply uns_names|exact Hi|exact Hq]. Qed.
Lemma dec_fun : forall i (f : func D W) q, nth_error dec_funs i = Some f -> ascii_alike q (fn_name f) -> get_function c q = Some f.
Proof. intros i f q Hi Hq. rewrite decimal_is in Hd. injection Hd as <-. eapply find_fun; [apply funs_names|exact Hi|exact Hq]. Qed.
Lemma dec_bin_found : forall q f, get_binary c q = Some f -> In f dec_bins /\ eq_ignore_case E q (bf_name f) = true.
Proof. intros q f Hf. rewrite decimal_is in Hd. injection Hd as <-. eapply found_bin. exact Hf. Qed.
Lemma dec_un_found : forall q f, get_unary c q = Some f -> In f dec_uns /\ eq_ignore_case E q (uf_name f) = true.
Proof. intros q f Hf. rewrite decimal_is in Hd. injection Hd as <-. eapply found_un. exact Hf. Qed.
Lemma dec_fun_found : forall q f, get_function c q = Some f -> In f dec_funs /\ eq_ignore_case E q (fn_name f) = true.
Proof. intros q f Hf. rewrite decimal_is in Hd. injection Hd as <-. eapply found_fun. exact Hf. Qed.
End Ctx.

(** ** Values *)
Section Values.
Context {D : Type}.
Variable L : dlib D.
Variable value : D -> Q.
Hypothesis EX : exact_decimals L value.
Variable fuel : nat.

Lemma limit_val : limit = 79228162514264337593543950336. Proof. reflexivity. Qed.
Lemma int_rep : forall z, Z.abs z < limit -> representable (inject_Z z).
Proof. intros z Hz. exists z, 0. split; [lia|]. split; [exact Hz|]. change (10 ^ 0) with 1. ring. Qed.
Lemma rep_comp : forall p q, (p == q)%Q -> representable p -> representable q.
Proof. intros p q E (c & s & A & B & C). exists c, s. split; [exact A|]. split; [exact B|]. rewrite <- E. exact C. Qed.
Lemma lit_val : forall z, Z.abs z < limit -> (value (d_lit L z 0) == inject_Z z)%Q.
Proof. intros z Hz. pose proof (ed_literal _ _ EX z 0%N Hz ltac:(lia)) as H. change (10 ^ Z.of_N 0) with 1 in H. rewrite <- H. ring. Qed.
Lemma zero_val : (value (ZERO L) == 0)%Q. Proof. apply lit_val. reflexivity. Qed.
Lemma one_val : (value (ONE L) == 1)%Q. Proof. apply lit_val. reflexivity. Qed.
Lemma two_val : (value (TWO L) == 2)%Q. Proof. apply lit_val. reflexivity. Qed.

Lemma d_eq_iff : forall x y, d_eq L x y = true <-> (value x == value y)%Q.
Proof. intros x y. unfold d_eq. rewrite (ed_compare _ _ EX), Qeq_alt. destruct (value x ?= value y)%Q; intuition congruence. Qed.
Lemma d_lt_iff : forall x y, d_lt L x y = true <-> (value x < value y)%Q.
Proof. intros x y. unfold d_lt. rewrite (ed_compare _ _ EX), Qlt_alt. destruct (value x ?= value y)%Q; intuition congruence. Qed.
Lemma d_gt_iff : forall x y, d_gt L x y = true <-> (value y < value x)%Q.
Proof. intros x y. unfold d_gt. rewrite (ed_compare _ _ EX), Qgt_alt. destruct (value x ?= value y)%Q; intuition congruence. Qed.
Lemma d_eq_false : forall x y, d_eq L x y = false <-> ~ (value x == value y)%Q.
Proof. intros x y. rewrite <- d_eq_iff. destruct (d_eq L x y); intuition congruence. Qed.
Lemma d_lt_false : forall x y, d_lt L x y = false <-> (value y <= value x)%Q.
Proof. intros x y. rewrite <- not_true_iff_false, d_lt_iff. split; [apply Qnot_lt_le|intros A B; lra]. Qed.
Lemma d_gt_false : forall x y, d_gt L x y = false <-> (value x <= value y)%Q.
Proof. intros x y. rewrite <- not_true_iff_false, d_gt_iff. split; [apply Qnot_lt_le|intros A B; lra]. Qed.
Lemma is_zero_iff : forall x, is_zero L x = true <-> (value x == 0)%Q.
Proof. intros x. unfold is_zero. rewrite d_eq_iff, zero_val. reflexivity. Qed.
Lemma is_one_iff : forall x, is_one L x = true <-> (value x == 1)%Q.
Proof. intros x. unfold is_one. rewrite d_eq_iff, one_val. reflexivity. Qed.

Lemma computes_exact : forall q r, computes value q r -> representable q -> exists z, r = Some z /\ (value z == q)%Q.
Proof. intros q r (A & _). exact A. Qed.
Lemma computes_over : forall q r, computes value q r -> (inject_Z limit <= Qabs q)%Q -> r = None.
Proof. intros q r (_ & A & _). exact A. Qed.
(** Operations on integers are exact or out of range. *)
Lemma computes_int : forall q r z, computes value q r -> (q == inject_Z z)%Q ->
  (Z.abs z < limit /\ exists y, r = Some y /\ (value y == inject_Z z)%Q) \/ (limit <= Z.abs z /\ r = None).
Proof.
  intros q r z (A & B & _) E. destruct (Z.lt_ge_cases (Z.abs z) limit) as [H|H]; [left|right]; (split; [exact H|]).
  - destruct A as (y & Y1 & Y2); [apply (rep_comp (inject_Z z)); [symmetry; exact E|apply int_rep; exact H]|]. exists y. split; [exact Y1|]. rewrite Y2. exact E.
  - apply B. rewrite E. change (Qabs (inject_Z z)) with (inject_Z (Z.abs z)). rewrite <- Zle_Qle. exact H.
Qed.
Lemma rep_bound : forall q, representable q -> (Qabs q <= inject_Z (limit - 1))%Q.
Proof.
  intros q (c & s & Hs & Hc & E). assert (T : 1 <= 10 ^ s) by (pose proof (Z.pow_pos_nonneg 10 s); lia).
  assert (Q1 : (Qabs q * inject_Z (10 ^ s) == inject_Z (Z.abs c))%Q).
  { change (inject_Z (Z.abs c)) with (Qabs (inject_Z c)). rewrite <- E, Qabs_Qmult. rewrite (Qabs_pos (inject_Z (10 ^ s))); [reflexivity|]. change 0%Q with (inject_Z 0). rewrite <- Zle_Qle. lia. }
  assert (Q2 : (Qabs q * 1 <= Qabs q * inject_Z (10 ^ s))%Q). { rewrite !(Qmult_comm (Qabs q)). apply Qmult_le_compat_r; [|apply Qabs_nonneg]. change 1%Q with (inject_Z 1). rewrite <- Zle_Qle. lia. }
  rewrite Q1 in Q2. assert (Q3 : (inject_Z (Z.abs c) <= inject_Z (limit - 1))%Q) by (rewrite <- Zle_Qle; lia). lra.
Qed.
Lemma computes_some : forall q r, computes value q r -> (Qabs q <= inject_Z (limit - 1))%Q -> exists z, r = Some z.
Proof. intros q r (_ & _ & A) H. destruct (A H) as (z & Hz & _). exists z. exact Hz. Qed.

(** *** Whole numbers *)
Lemma Qfloor_int : forall z, Qfloor (inject_Z z) = z. Proof. intros. unfold Qfloor, inject_Z. apply Z.div_1_r. Qed.
Lemma truncated_int : forall z, truncated (inject_Z z) = z.
Proof. intros z. unfold truncated, Qceiling. rewrite Qfloor_int. destruct (Qle_bool _ _); [reflexivity|]. rewrite <- inject_Z_opp, Qfloor_int. lia. Qed.
Lemma truncated_comp : forall p q, (p == q)%Q -> truncated p = truncated q.
Proof.
  intros p q E. unfold truncated. rewrite (Qfloor_comp _ _ E), (Qceiling_comp _ _ E). assert (Qle_bool 0 p = Qle_bool 0 q) as ->; [|reflexivity].
  apply eq_true_iff_eq. rewrite !Qle_bool_iff, E. reflexivity.
Qed.
Lemma is_integer_iff : forall x, is_integer L x = true <-> exists z, (value x == inject_Z z)%Q.
Proof.
  intros x. unfold is_integer. rewrite is_zero_iff, (ed_fract _ _ EX). split.
  - intros H. exists (truncated (value x)). lra.
  - intros [z E]. rewrite (truncated_comp _ _ E), truncated_int, E. ring.
Qed.

(** *** Powers *)
Lemma Qpow_step : forall q n, 0 <= n -> (q ^ (n + 1) == q ^ n * q)%Q.
Proof. intros q n Hn. rewrite Qpower_plus' by lia. reflexivity. Qed.
Lemma Qpow_dbl : forall q n, 0 <= n -> (q ^ (2 * n) == q ^ n * q ^ n)%Q.
Proof. intros q n Hn. destruct (Z.eq_dec n 0) as [->|]; [reflexivity|]. replace (2 * n) with (n + n) by lia. rewrite Qpower_plus' by lia. reflexivity. Qed.
Lemma Qpow_add : forall q n m, 0 <= n -> 0 <= m -> (q ^ (n + m) == q ^ n * q ^ m)%Q.
Proof.
  intros q n m Hn Hm. destruct (Z.eq_dec (n + m) 0) as [E|]; [|apply Qpower_plus'; assumption]. assert (n = 0) by lia. assert (m = 0) by lia. subst. reflexivity.
Qed.

(** The loop is at the digits [e] of the exponent; the base has been squared [k] times. *)
Definition top (e : positive) (k : Z) : Z := 2 ^ (k + Zpos (Pos.size e)).
Lemma powi_exact : forall e v k m r b, 0 <= k -> 0 <= m < 2 ^ k -> (value r == v ^ m)%Q -> (value b == v ^ (2 ^ k))%Q ->
  (forall j, 0 <= j <= top e k -> representable (v ^ j)%Q) ->
  exists y, powi_loop L r b e = Ok (Some y) /\ (value y == v ^ (m + 2 ^ k * Zpos e))%Q.
Proof.
  induction e as [e IH|e IH|]; intros v k m r b Hk Hm Hr Hb HR; cbn [powi_loop Pos.size top] in *; unfold top in *; cbn [Pos.size] in HR.
  - assert (P2 : 2 ^ (k + 1) = 2 * 2 ^ k) by (rewrite Z.pow_add_r by lia; lia).
    assert (TT : 2 ^ (k + 1) <= 2 ^ (k + Zpos (Pos.succ (Pos.size e)))) by (apply Z.pow_le_mono_r; lia).
    destruct (computes_exact _ _ (ed_mul _ _ EX r b)) as (r' & R1 & R2).
    { apply (rep_comp (v ^ (m + 2 ^ k))); [rewrite Hr, Hb; apply Qpow_add; lia|]. apply HR. lia. }
    unfold d_mul. rewrite R1. cbn [ask]. destruct (computes_exact _ _ (ed_mul _ _ EX b b)) as (b' & B1 & B2).
    { apply (rep_comp (v ^ (2 ^ (k + 1)))); [rewrite Hb, P2; apply Qpow_dbl; lia|]. apply HR. lia. }
    rewrite B1. cbn [ask]. destruct (IH v (k + 1) (m + 2 ^ k) r' b') as (y & Y1 & Y2); try lia.
    + rewrite R2, Hr, Hb. symmetry. apply Qpow_add; lia.
    + rewrite B2, Hb, P2. symmetry. apply Qpow_dbl. lia.
    + intros j Hj. apply HR. replace (k + Zpos (Pos.succ (Pos.size e))) with (k + 1 + Zpos (Pos.size e)) by lia. exact Hj.
    + exists y. split; [exact Y1|]. rewrite Y2. rewrite P2. replace (m + 2 ^ k + 2 * 2 ^ k * Zpos e) with (m + 2 ^ k * Zpos e~1) by lia. reflexivity.
  - assert (P2 : 2 ^ (k + 1) = 2 * 2 ^ k) by (rewrite Z.pow_add_r by lia; lia).
    assert (TT : 2 ^ (k + 1) <= 2 ^ (k + Zpos (Pos.succ (Pos.size e)))) by (apply Z.pow_le_mono_r; lia).
    destruct (computes_exact _ _ (ed_mul _ _ EX b b)) as (b' & B1 & B2).
    { apply (rep_comp (v ^ (2 ^ (k + 1)))); [rewrite Hb, P2; apply Qpow_dbl; lia|]. apply HR. lia. }
    unfold d_mul. rewrite B1. cbn [ask]. destruct (IH v (k + 1) m r b') as (y & Y1 & Y2); try lia; try exact Hr.
    + rewrite B2, Hb, P2. symmetry. apply Qpow_dbl. lia.
    + intros j Hj. apply HR. replace (k + Zpos (Pos.succ (Pos.size e))) with (k + 1 + Zpos (Pos.size e)) by lia. exact Hj.
    + exists y. split; [exact Y1|]. rewrite Y2. rewrite P2. replace (m + 2 * 2 ^ k * Zpos e) with (m + 2 ^ k * Zpos e~0) by lia. reflexivity.
  - assert (P2 : 2 ^ (k + 1) = 2 * 2 ^ k) by (rewrite Z.pow_add_r by lia; lia).
    destruct (computes_exact _ _ (ed_mul _ _ EX r b)) as (r' & R1 & R2).
    { apply (rep_comp (v ^ (m + 2 ^ k))); [rewrite Hr, Hb; apply Qpow_add; lia|]. apply HR. lia. }
    unfold d_mul. rewrite R1. cbn [ask]. destruct (computes_exact _ _ (ed_mul _ _ EX b b)) as (b' & B1 & B2).
    { apply (rep_comp (v ^ (2 ^ (k + 1)))); [rewrite Hb, P2; apply Qpow_dbl; lia|]. apply HR. lia. }
    rewrite B1. cbn [ask]. exists r'. split; [reflexivity|]. rewrite R2, Hr, Hb. rewrite Z.mul_1_r. symmetry. apply Qpow_add; lia.
Qed.
Lemma pow_mono : forall z i j, 0 <= i <= j -> limit <= Z.abs (z ^ i) -> limit <= Z.abs (z ^ j).
Proof.
  intros z i j H Hi. rewrite !Z.abs_pow in *. assert (A : 1 <= Z.abs z).
  { destruct (Z.eq_dec z 0) as [->|]; [|lia]. exfalso. change (Z.abs 0) with 0 in Hi. destruct (Z.eq_dec i 0) as [->|]; [|rewrite Z.pow_0_l in Hi by lia]; rewrite limit_val in Hi; lia. }
  pose proof (Z.pow_le_mono_r (Z.abs z) i j). lia.
Qed.
Lemma inject_pow : forall z n, 0 <= n -> (inject_Z (z ^ n) == inject_Z z ^ n)%Q.
Proof. intros z n Hn. apply Zpower_Qpower. exact Hn. Qed.
Lemma mul_int : forall x y a b, (value x == inject_Z a)%Q -> (value y == inject_Z b)%Q ->
  (Z.abs (a * b) < limit /\ exists z, d_mul L x y = Some z /\ (value z == inject_Z (a * b))%Q) \/ (limit <= Z.abs (a * b) /\ d_mul L x y = None).
Proof. intros x y a b Hx Hy. apply (computes_int (value x * value y)); [apply (ed_mul _ _ EX)|]. rewrite Hx, Hy, inject_Z_mult. reflexivity. Qed.
Lemma powi_over : forall e z k m r b, 0 <= k -> 0 <= m < 2 ^ k -> (value r == inject_Z (z ^ m))%Q -> (value b == inject_Z (z ^ (2 ^ k)))%Q ->
  limit <= Z.abs (z ^ top e k) -> powi_loop L r b e = Ok None.
Proof.
  induction e as [e IH|e IH|]; intros z k m r b Hk Hm Hr Hb HR; cbn [powi_loop]; unfold top in HR; cbn [Pos.size] in HR;
    assert (P2 : 2 ^ (k + 1) = 2 ^ k + 2 ^ k) by (rewrite Z.pow_add_r by lia; lia).
  - destruct (mul_int _ _ _ _ Hr Hb) as [(_ & r' & -> & R2)|(_ & ->)]; [|reflexivity]. cbn [ask]. rewrite <- Z.pow_add_r in R2 by lia.
    destruct (mul_int _ _ _ _ Hb Hb) as [(_ & b' & -> & B2)|(_ & ->)]; [|reflexivity]. cbn [ask]. rewrite <- Z.pow_add_r, <- P2 in B2 by lia.
    apply (IH z (k + 1) (m + 2 ^ k) r' b'); [clear - Hk; lia|clear - Hm P2; lia|exact R2|exact B2|]. unfold top. replace (k + 1 + Zpos (Pos.size e)) with (k + Zpos (Pos.succ (Pos.size e))) by lia. exact HR.
  - destruct (mul_int _ _ _ _ Hb Hb) as [(_ & b' & -> & B2)|(_ & ->)]; [|reflexivity]. cbn [ask]. rewrite <- Z.pow_add_r, <- P2 in B2 by lia.
    apply (IH z (k + 1) m r b'); [clear - Hk; lia|clear - Hm P2; lia|exact Hr|exact B2|]. unfold top. replace (k + 1 + Zpos (Pos.size e)) with (k + Zpos (Pos.succ (Pos.size e))) by lia. exact HR.
  - destruct (mul_int _ _ _ _ Hr Hb) as [(_ & r' & -> & R2)|(_ & ->)]; [|reflexivity]. cbn [ask].
    destruct (mul_int _ _ _ _ Hb Hb) as [(F & b' & -> & B2)|(_ & ->)]; [|reflexivity]. exfalso. rewrite <- Z.pow_add_r, <- P2 in F by lia. lia.
Qed.
Lemma size_log2 : forall p, Zpos (Pos.size p) = Z.log2 (Zpos p) + 1.
Proof. intros p. destruct p; cbn [Pos.size Z.log2]; lia. Qed.
Lemma top_log2 : forall n, 0 < n -> top (Z.to_pos n) 0 = 2 ^ (Z.log2 n + 1).
Proof. intros n Hn. unfold top. rewrite size_log2, Z2Pos.id by lia. f_equal. Qed.

Lemma powi_loop_exact : forall x n v, 1 <= n -> (value x == v)%Q -> (forall j, 0 <= j <= 2 ^ (Z.log2 n + 1) -> representable (v ^ j)%Q) ->
  exists y, powi_loop L (ONE L) x (Z.to_pos n) = Ok (Some y) /\ (value y == v ^ n)%Q.
Proof.
  intros x n v Hn Hx HR. destruct (powi_exact (Z.to_pos n) v 0 0 (ONE L) x) as (y & Y1 & Y2); try lia.
  - apply one_val. - exact Hx.
  - rewrite top_log2 by lia. exact HR.
  - exists y. split; [exact Y1|]. rewrite Y2, Z2Pos.id by lia. change (2 ^ 0) with 1. rewrite Z.add_0_l, Z.mul_1_l. reflexivity.
Qed.
Lemma powi_loop_over : forall x n z, 1 <= n -> (value x == inject_Z z)%Q -> limit <= Z.abs (z ^ (2 ^ (Z.log2 n + 1))) ->
  powi_loop L (ONE L) x (Z.to_pos n) = Ok None.
Proof.
  intros x n z Hn Hx HR. apply (powi_over (Z.to_pos n) z 0 0); [lia|lia| | |].
  - apply one_val. - change (2 ^ 0) with 1. rewrite Z.pow_1_r. exact Hx. - rewrite top_log2 by lia. exact HR.
Qed.
(** Powers of an integer, all of which are representable up to [j]. *)
Lemma int_powers : forall z t, 0 <= t -> Z.abs (z ^ t) < limit -> forall j, 0 <= j <= t -> representable (inject_Z z ^ j)%Q.
Proof.
  intros z t Ht H j Hj. apply (rep_comp (inject_Z (z ^ j))); [apply inject_pow; lia|]. apply int_rep.
  destruct (Z.lt_ge_cases (Z.abs (z ^ j)) limit) as [|G]; [assumption|]. pose proof (pow_mono z j t ltac:(lia) G). lia.
Qed.
Lemma div_exact : forall x y v, (value x == v)%Q -> ~ (value y == 0)%Q -> representable (v / value y) -> exists z, d_div L x y = Some z /\ (value z == v / value y)%Q.
Proof.
  intros x y v Hx Hy R. destruct (computes_exact _ _ (ed_div _ _ EX x y Hy)) as (z & Z1 & Z2).
  - apply (rep_comp (v / value y)); [rewrite Hx; reflexivity|exact R].
  - exists z. split; [exact Z1|]. rewrite Z2, Hx. reflexivity.
Qed.
End Values.
