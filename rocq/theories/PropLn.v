(** * The logarithm in decimal contexts (C72)

    The theorems hold for every decimal library whose arithmetic is as documented (SpecDecimal.exact_decimals). The logarithm
    [ln] they are compared with is the one of the real numbers of Coq's standard library, the inverse of the exponential.
    [fuel] bounds the steps of the model's loops; forty are enough for every decimal. *)
From Coq Require Import List NArith ZArith QArith Qabs Qround Qreals Reals Bool Lia Lra String.
From Verif Require Import ModelBase ModelContext ModelEvaluator ModelText ModelDefault ModelFloat ModelNum ModelOps ModelStd ModelDecimal
  SpecText SpecExpr SpecTokens SpecOps SpecDecimal ProofText ProofDefault ProofRpn ProofTokens2 ProofBuild ProofCtx ProofWf ProofOps3 ProofDecRef ProofDecimal ProofDecimal2 ProofDecTrig ProofDecFun ProofDecFun2 PropDecimal PropDecimal2
  ProofReals ProofLn ProofDecReal ProofDecReal2 ProofDecLn.
Import ListNotations.
Local Open Scope R_scope.

Section Calls.
Context {D W : Type}.
Variable L : dlib D.
Variable fuel : nat.
Variable rnd : W -> f64 * W.
Variable E : env.
Variable dbg : bool.
Variable cf : config.
Variable d : dctx D W.
Hypothesis Hd : decimal_context L fuel rnd E dbg cf = Ok d.
Lemma ln_is x w : apply_function (to_ctx E d) (lit "ln") [x] w = (or_over (checked_ln L fuel x), w).
Proof. unfold apply_function. fn 7%nat (@fwd_checked D W "ln"%string (checked_ln L fuel)) "ln"%string. reflexivity. Qed.
Lemma log_is x w : apply_function (to_ctx E d) (lit "log") [x] w = (or_over (checked_log L fuel x (TEN L)), w).
Proof. unfold apply_function. fn 8%nat (@x_log D W L fuel) "log"%string. reflexivity. Qed.
Lemma log2_is x b w : apply_function (to_ctx E d) (lit "log") [x; b] w = (or_over (checked_log L fuel x b), w).
Proof. unfold apply_function. fn 8%nat (@x_log D W L fuel) "log"%string. reflexivity. Qed.
End Calls.

Lemma twentieth q : (1 # 20 <= q)%Q -> / 20 <= Q2R q.
Proof. intros H. apply Qle_Rle in H. eapply Rle_trans; [|exact H]. unfold Q2R. cbn. lra. Qed.

(** ** From one twentieth up: close to the real logarithm *)
Theorem C72_ln : forall D W (L : dlib D) value, exact_decimals L value -> forall fuel (rnd : W -> f64 * W) E dbg cf d, decimal_context L fuel rnd E dbg cf = Ok d ->
  forall x w, (40 <= fuel)%nat -> (1 # 20 <= value x)%Q ->
  (exists y, apply_function (to_ctx E d) (lit "ln") [x] w = (Ok y, w) /\ Rabs (Q2R (value y) - ln (Q2R (value x))) <= 2 / 10 ^ 16) /\
  (exists y, apply_function (to_ctx E d) (lit "log") [x] w = (Ok y, w) /\ Rabs (Q2R (value y) - ln (Q2R (value x)) / ln 10) <= 2 / 10 ^ 16).
Proof.
  intros D W L value EX fuel rnd E dbg cf d Hd x w Hf Hx. apply twentieth in Hx. rewrite (ln_is L fuel rnd E dbg cf d Hd), (log_is L fuel rnd E dbg cf d Hd).
  destruct (ln_near L value EX fuel x Hf Hx) as (a & A1 & A2). pose proof (ln_bound L value EX x Hx) as B. set (v := ProofDecReal.v value) in *. change (Q2R (value x)) with (v x) in *.
  assert (Va : Rabs (v a) <= 71). { replace (v a) with ((v a - ln (v x)) + ln (v x)) by ring. eapply Rle_trans; [apply Rabs_triang|]. lra. }
  split; [exists a; rewrite A1; split; [reflexivity|]; change (Q2R (value a)) with (v a); lra|].
  destruct (log_ten L value EX fuel x a A1 ltac:(fold v; lra)) as (y & -> & Y). exists y. split; [reflexivity|]. fold v in Y. change (Q2R (value y)) with (v y).
  assert (Vl : v (LN_10 L) = IZR 23025850929940456840179914546 / 10 ^ 28) by (apply (v_lit28 L value EX); reflexivity). pose proof (Rabs_def2' _ _ ln10_b) as P. rewrite <- Vl in P. assert (Vlb : 2.3 < v (LN_10 L) < 2.31) by (rewrite Vl; lra). clear Vl.
  set (l := v (LN_10 L)) in *. clearbody l. set (k := ln 10) in *. assert (K : 2.29 <= k <= 2.32) by lra. clearbody k. set (s := ln (v x)) in *. clearbody s.
  assert (I1 : / l <= / 2.3) by (apply Rinv_le_contravar; lra). assert (I2 : 0 < / l) by (apply Rinv_0_lt_compat; lra). assert (J1 : / k <= / 2.29) by (apply Rinv_le_contravar; lra). assert (J2 : 0 < / k) by (apply Rinv_0_lt_compat; lra).
  replace (v y - s / k) with ((v y - v a / l) + ((v a - s) * / l + s * ((k - l) * (/ l * / k)))) by (field; lra).
  eapply Rle_trans; [apply Rabs_triang|]. pose proof (Rabs_triang ((v a - s) * / l) (s * ((k - l) * (/ l * / k)))) as T. rewrite !Rabs_mult, (Rabs_pos_eq (/ l)), (Rabs_pos_eq (/ k)) in T by lra.
  assert (T1 : Rabs (v a - s) * / l <= 1.3 * / 10 ^ 16 * / 2.3) by (apply Rmult_le_compat; try apply Rabs_pos; lra).
  assert (Kl : Rabs (k - l) <= 2 * / 10 ^ 28) by (apply Rabs_le; lra).
  assert (IJ : / l * / k <= 1) by nra. assert (IJ0 : 0 <= / l * / k) by nra.
  assert (T2 : Rabs (k - l) * (/ l * / k) <= 2 * / 10 ^ 28 * 1) by (apply Rmult_le_compat; try apply Rabs_pos; lra).
  assert (T3 : Rabs s * (Rabs (k - l) * (/ l * / k)) <= 70 * (2 * / 10 ^ 28 * 1)) by (apply Rmult_le_compat; try apply Rabs_pos; try lra; apply Rmult_le_pos; [apply Rabs_pos|lra]). lra.
Qed.
Print Assumptions C72_ln.

(** ** Powers of ten: [log] is exact up to a thousand, and as close as decimals of 28 digits permit beyond. *)
Theorem C72_powers_of_ten : forall D W (L : dlib D) value, exact_decimals L value -> forall fuel (rnd : W -> f64 * W) E dbg cf d, decimal_context L fuel rnd E dbg cf = Ok d ->
  forall x w k, (40 <= fuel)%nat -> (k <= 28)%nat -> (value x == inject_Z (10 ^ Z.of_nat k))%Q ->
  exists y, apply_function (to_ctx E d) (lit "log") [x] w = (Ok y, w) /\ Rabs (Q2R (value y) - INR k) <= / 10 ^ 25 /\ ((k <= 3)%nat -> (value y == inject_Z (Z.of_nat k))%Q).
Proof.
  intros D W L value EX fuel rnd E dbg cf d Hd x w k Hf Hk Hx. rewrite (log_is L fuel rnd E dbg cf d Hd). destruct (ln_power L value EX fuel x k Hf Hk Hx) as (a & A1 & A2 & A3). set (v := ProofDecReal.v value) in *.
  assert (Vl : v (LN_10 L) = IZR 23025850929940456840179914546 / 10 ^ 28) by (apply (v_lit28 L value EX); reflexivity). assert (Vlb : 2.3 < v (LN_10 L) < 2.31) by (rewrite Vl; lra). clear Vl.
  assert (K : 0 <= INR k <= 28). { split; [apply pos_INR|]. rewrite INR_IZR_INZ. apply IZR_le. lia. }
  assert (Va : Rabs (v a) <= 71). { replace (v a) with ((v a - INR k * v (LN_10 L)) + INR k * v (LN_10 L)) by ring. eapply Rle_trans; [apply Rabs_triang|]. rewrite (Rabs_pos_eq (INR k * _)) by nra. nra. }
  destruct (log_ten L value EX fuel x a A1 ltac:(fold v; lra)) as (y & Y1 & Y2). fold v in Y2. exists y. rewrite Y1. split; [reflexivity|]. change (Q2R (value y)) with (v y). split.
  - set (l := v (LN_10 L)) in *. clearbody l. assert (I1 : / l <= / 2.3) by (apply Rinv_le_contravar; lra). assert (I2 : 0 < / l) by (apply Rinv_0_lt_compat; lra).
    replace (v y - INR k) with ((v y - v a / l) + (v a - INR k * l) * / l) by (field; lra). eapply Rle_trans; [apply Rabs_triang|]. rewrite Rabs_mult, (Rabs_pos_eq (/ l)) by lra.
    assert (T1 : Rabs (v a - INR k * l) * / l <= 2 * / 10 ^ 26 * / 2.3) by (apply Rmult_le_compat; try apply Rabs_pos; lra). lra.
  - intros H3. specialize (A3 H3). assert (NZ : ~ (value (LN_10 L) == 0)%Q) by (apply v_nz; fold v; lra). unfold checked_log in Y1. rewrite A1 in Y1. cbn [ModelDecimal.call] in Y1.
    assert (T : d_eq L (TEN L) (TEN L) = true) by (apply (d_eq_iff L value EX); reflexivity). rewrite T in Y1.
    assert (Eq : (inject_Z (Z.of_nat k) == value a / value (LN_10 L))%Q) by (rewrite A3; field; exact NZ).
    destruct (computes_exact value _ _ (ed_div _ _ EX a (LN_10 L) NZ)) as (q & Q1 & Q2); [apply (rep_comp _ _ Eq), int_rep; rewrite limit_val; lia|].
    unfold d_div in Y1. rewrite Q1 in Y1. cbn [ask] in Y1. injection Y1 as <-. rewrite Q2, <- Eq. reflexivity.
Qed.
Print Assumptions C72_powers_of_ten.

(** ** A logarithm to another base solves base^y = x up to rounding: y ln(base) is close to ln(x). *)
Theorem C72_base : forall D W (L : dlib D) value, exact_decimals L value -> forall fuel (rnd : W -> f64 * W) E dbg cf d, decimal_context L fuel rnd E dbg cf = Ok d ->
  forall x b w, (40 <= fuel)%nat -> (1 # 20 <= value x)%Q -> (1 # 20 <= value b)%Q -> / 10 ^ 6 <= Rabs (ln (Q2R (value b))) ->
  exists y, apply_function (to_ctx E d) (lit "log") [x; b] w = (Ok y, w) /\
    Rabs (Q2R (value y) * ln (Q2R (value b)) - ln (Q2R (value x))) <= 3 / 10 ^ 16 * (1 + Rabs (Q2R (value y))).
Proof.
  intros D W L value EX fuel rnd E dbg cf d Hd x b w Hf Hx Hb Hl. apply twentieth in Hx. apply twentieth in Hb. rewrite (log2_is L fuel rnd E dbg cf d Hd).
  destruct (ln_near L value EX fuel x Hf Hx) as (lx & A1 & A2). pose proof (ln_bound L value EX x Hx) as Bx. destruct (ln_near L value EX fuel b Hf Hb) as (lb & B1 & B2). set (v := ProofDecReal.v value) in *. change (Q2R (value x)) with (v x) in *. change (Q2R (value b)) with (v b) in *.
  assert (Vx : Rabs (v lx) <= 71). { replace (v lx) with ((v lx - ln (v x)) + ln (v x)) by ring. eapply Rle_trans; [apply Rabs_triang|]. lra. }
  assert (R : exists y, checked_log L fuel x b = Ok (Some y) /\ Rabs (v y * ln (v b) - ln (v x)) <= 3 / 10 ^ 16 * (1 + Rabs (v y))).
  2:{ destruct R as (y & -> & Y). exists y. split; [reflexivity|exact Y]. }
  assert (G : forall q, Rabs (v q - ln (v b)) <= 1.4 * / 10 ^ 16 -> exists y, ask (d_div L lx q) (fun r => some r) = Ok (Some y) /\ Rabs (v y * ln (v b) - ln (v x)) <= 3 / 10 ^ 16 * (1 + Rabs (v y))).
  { intros q Hq. set (s := ln (v b)) in *. assert (Qb : 0.9 * / 10 ^ 6 <= Rabs (v q)). { pose proof (Rabs_triang (v q) (s - v q)) as T. replace (v q + (s - v q)) with s in T by ring. rewrite (Rabs_minus_sym s) in T. lra. }
    assert (NZr : v q <> 0) by (intros N; rewrite N, Rabs_R0 in Qb; lra). assert (NZ : ~ (value q == 0)%Q) by (apply v_nz; exact NZr).
    assert (Eq : Q2R (value lx / value q) = v lx / v q) by (rewrite Q2R_div by exact NZ; reflexivity).
    assert (I : / Rabs (v q) <= / (0.9 * / 10 ^ 6)) by (apply Rinv_le_contravar; lra). assert (I0 : 0 < / Rabs (v q)) by (apply Rinv_0_lt_compat; lra).
    assert (Sz : Rabs (v lx / v q) <= 71 * / (0.9 * / 10 ^ 6)). { unfold Rdiv. rewrite Rabs_mult, Rabs_inv. apply Rmult_le_compat; try apply Rabs_pos; lra. }
    destruct (near18 value _ _ (ed_div _ _ EX lx q NZ)) as (y & Y1 & Y2); [rewrite Eq; lra|]. rewrite Eq in Y2. fold v in Y2. unfold d_div. rewrite Y1. exists y. split; [reflexivity|].
    pose proof (Rabs_def2' _ _ Hq) as Hq'.
    assert (Vq : Rabs (v q) <= 71). { destruct (Rle_dec (Rabs (v q)) 71) as [H|H]; [exact H|]. exfalso. pose proof (ln_bound L value EX b Hb) as Bb. fold v s in Bb. pose proof (Rabs_triang (v q - s) s) as T. replace (v q - s + s) with (v q) in T by ring. lra. }
    replace (v y * s - ln (v x)) with (- (v y * (v q - s)) + ((v y - v lx / v q) * v q + (v lx - ln (v x)))) by (field; exact NZr).
    eapply Rle_trans; [apply Rabs_triang|]. rewrite Rabs_Ropp. pose proof (Rabs_triang ((v y - v lx / v q) * v q) (v lx - ln (v x))) as T. rewrite !Rabs_mult in *.
    assert (Rabs (v y) * Rabs (v q - s) <= Rabs (v y) * (1.4 * / 10 ^ 16)) by (apply Rmult_le_compat_l; [apply Rabs_pos|lra]).
    assert (Rabs (v y - v lx / v q) * Rabs (v q) <= / 10 ^ 18 * 71) by (apply Rmult_le_compat; try apply Rabs_pos; lra). pose proof (Rabs_pos (v y)). lra. }
  unfold checked_log. rewrite A1. cbn [ModelDecimal.call]. destruct (d_eq L b (TEN L)) eqn:T.
  - apply (d_eq_iff L value EX), v_eq in T. fold v in T. assert (VT : v (TEN L) = 10) by (apply (v_int L value EX); reflexivity). apply G. rewrite T, VT.
    assert (Vl : v (LN_10 L) = IZR 23025850929940456840179914546 / 10 ^ 28) by (apply (v_lit28 L value EX); reflexivity). pose proof ln10_b as P. rewrite <- Vl, Rabs_minus_sym in P. lra.
  - rewrite B1. cbn [ModelDecimal.call]. apply G. lra.
Qed.
Print Assumptions C72_base.

(** ** Between zero and one: 999 terms of the power series at one
    [series x] is (x-1) - (x-1)^2/2 + (x-1)^3/3 - ... up to the 999th power, which is what the function computes. *)
Definition series (x : R) : R := sum_f_R0 (fun i => (-1) ^ i * (x - 1) ^ S i / INR (S i)) 998.
Lemma series_lsum n t : sum_f_R0 (fun i => (-1) ^ i * (1 - t - 1) ^ S i / INR (S i)) n = - lsum (S n) t.
Proof.
  assert (T : forall i, (-1) ^ i * (1 - t - 1) ^ S i / INR (S i) = - (t ^ S i / INR (S i))).
  { intros i. replace (1 - t - 1) with (-1 * t) by ring. rewrite Rpow_mult_distr. cbn [pow]. assert (Q : (-1) ^ i * (-1) ^ i = 1) by (rewrite <- Rpow_mult_distr; replace (-1 * -1) with 1 by ring; apply pow1). unfold Rdiv.
    transitivity (- (t * t ^ i * / INR (S i)) * ((-1) ^ i * (-1) ^ i)); [ring|]. rewrite Q. ring. }
  induction n as [|n IH]; cbn [sum_f_R0].
  - rewrite T. cbn [lsum]. ring.
  - rewrite IH, T. change (lsum (S (S n)) t) with (lsum (S n) t + t ^ S (S n) / INR (S (S n))). ring.
Qed.
Lemma series_is x : series x = - lsum 999 (1 - x).
Proof. unfold series. rewrite <- (series_lsum 998 (1 - x)). replace (1 - (1 - x)) with x by ring. reflexivity. Qed.
Theorem C72_ln_below_one : forall D W (L : dlib D) value, exact_decimals L value -> forall fuel (rnd : W -> f64 * W) E dbg cf d, decimal_context L fuel rnd E dbg cf = Ok d ->
  forall x w, (0 < value x < 1)%Q ->
  exists y, apply_function (to_ctx E d) (lit "ln") [x] w = (Ok y, w) /\ Rabs (Q2R (value y) - series (Q2R (value x))) <= 2 / 10 ^ 16 /\ -8 <= Q2R (value y).
Proof.
  intros D W L value EX fuel rnd E dbg cf d Hd x w [X0 X1]. rewrite (ln_is L fuel rnd E dbg cf d Hd). apply Qlt_Rlt in X0. apply Qlt_Rlt in X1. rewrite Q2R_0 in X0. rewrite Q2R_1 in X1. set (v := ProofDecReal.v value) in *. change (Q2R (value x)) with (v x) in *.
  destruct (ln_small L value EX fuel x fuel ltac:(fold v; lra)) as (y & Y1 & Y2 & Y3). fold v in Y2, Y3. exists y. unfold checked_ln. rewrite Y1. split; [reflexivity|]. change (Q2R (value y)) with (v y). rewrite series_is.
  assert (Lb : 0 <= lsum 999 (1 - v x)) by (apply lsum_bound; lra). assert (Lh : lsum 999 (1 - v x) <= 7.94).
  { eapply Rle_trans; [apply lsum_harmonic; [lia|lra]|]. assert (ln (INR 999) <= ln (10 ^ 3)). { left. apply ln_increasing; [apply lt_0_INR; lia|]. rewrite INR_IZR_INZ. change (IZR (Z.of_nat 999)) with 999. lra. }
    replace (10 ^ 3) with (10 * (10 * 10)) in H by ring. rewrite !ln_mult in H by lra. pose proof (Rabs_def2' _ _ ln10_b) as P. lra. }
  set (s := lsum 999 (1 - v x)) in *. clearbody s. pose proof (Rabs_def2' _ _ Y2) as Y4. split; lra.
Qed.
Print Assumptions C72_ln_below_one.
(** So for small arguments it is not the logarithm, whatever the decimal library: at 10^-10 and below it is off by more than 15. *)
Lemma ln_tiny x : 0 < x <= / 10 ^ 10 -> ln x <= -23.
Proof.
  intros [H0 H]. apply Rle_trans with (ln (/ 10 ^ 10)); [destruct H as [H|H]; [left; apply ln_increasing; lra|rewrite H; lra]|]. rewrite ln_Rinv by lra.
  assert (E : forall n, ln (10 ^ n) = INR n * ln 10). { induction n as [|n IH]; [cbn; rewrite ln_1; ring|]. cbn [pow]. rewrite ln_mult, IH, S_INR by (try apply pow_lt; lra). ring. }
  rewrite E, INR_IZR_INZ. change (IZR (Z.of_nat 10)) with 10. pose proof (Rabs_def2' _ _ ln10_b) as P. lra.
Qed.
Theorem C72_ln_near_zero_refuted : forall D W (L : dlib D) value, exact_decimals L value -> forall fuel (rnd : W -> f64 * W) E dbg cf d, decimal_context L fuel rnd E dbg cf = Ok d ->
  forall x w, (0 < value x <= 1 # 10000000000)%Q ->
  exists y, apply_function (to_ctx E d) (lit "ln") [x] w = (Ok y, w) /\ 15 <= Q2R (value y) - ln (Q2R (value x)).
Proof.
  intros D W L value EX fuel rnd E dbg cf d Hd x w [X0 X1]. destruct (C72_ln_below_one D W L value EX fuel rnd E dbg cf d Hd x w) as (y & Y1 & _ & Y2).
  { split; [exact X0|]. eapply Qle_lt_trans; [exact X1|reflexivity]. }
  exists y. split; [exact Y1|]. apply Qlt_Rlt in X0. apply Qle_Rle in X1. rewrite Q2R_0 in X0. assert (T : ln (Q2R (value x)) <= -23); [|lra]. apply ln_tiny. split; [exact X0|]. eapply Rle_trans; [exact X1|]. unfold Q2R. cbn. lra.
Qed.
Print Assumptions C72_ln_near_zero_refuted.
(** Decimals of the reference library meet the hypotheses; the powers of ten beyond a thousand need not be exact. *)
Example C72_case : (1 # 20 <= val (num 5 2))%Q /\ (val (num 1000 0) == inject_Z (10 ^ Z.of_nat 3))%Q /\ ref_fun "log" [num 1000 0] = Ok 3%Q /\ (0 < val (num 1 20) <= 1 # 10000000000)%Q /\
  (exists q, ref_fun "ln" [num 1000 0] = Ok q /\ (69 # 10 < q < 691 # 100)%Q) /\ / 10 ^ 6 <= Rabs (ln (Q2R (val (num 10 0)))).
Proof.
  repeat match goal with |- _ /\ _ => split end; try (vm_compute; reflexivity); try (vm_compute; discriminate).
  - eexists. split; [vm_compute; reflexivity|]. split; vm_compute; reflexivity.
  - replace (val (num 10 0)) with (inject_Z 10) by (vm_compute; reflexivity). rewrite Q2R_int. pose proof (Rabs_def2' _ _ ln10_b) as P. rewrite Rabs_pos_eq; lra.
Qed.
