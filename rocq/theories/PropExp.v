(** * The exponential in decimal contexts, and what is computed from it (C73)

    The theorems hold for every decimal library whose arithmetic is as documented (SpecDecimal.exact_decimals). [exp], [sinh],
    [cosh], [tanh] and [Rpower] on the right of the comparisons are those of the real numbers of Coq's standard library. *)
From Coq Require Import List NArith ZArith QArith Qabs Qround Qreals Reals Bool Lia Lra String.
From Verif Require Import ModelBase ModelContext ModelEvaluator ModelText ModelDefault ModelFloat ModelNum ModelOps ModelStd ModelDecimal
  SpecText SpecExpr SpecTokens SpecOps SpecDecimal ProofText ProofDefault ProofRpn ProofTokens2 ProofBuild ProofCtx ProofWf ProofOps3 ProofDecRef ProofDecimal ProofDecimal2 ProofDecTrig ProofDecFun ProofDecFun2 PropDecimal PropDecimal2
  ProofReals ProofLn ProofExp ProofDecReal ProofDecReal2 ProofDecLn ProofDecExp.
Import ListNotations.
Local Open Scope R_scope.

Section Calls.
Context {D W : Type}.
Variable L : dlib D.
Variable fuel : nat.
Variable rnd : W -> f64 * W.
Variable E : env.
Variable dbg : bool.
Variable cf : config.
Variable d : dctx D W.
Hypothesis Hd : decimal_context L fuel rnd E dbg cf = Ok d.
Lemma exp_is x w : apply_function (to_ctx E d) (lit "exp") [x] w = (or_over (checked_exp L x), w).
Proof. unfold apply_function. fn 14%nat (@fwd_checked D W "exp"%string (checked_exp L)) "exp"%string. reflexivity. Qed.
Lemma sinh_is x w : apply_function (to_ctx E d) (lit "sinh") [x] w = (or_over (ModelDecimal.sinh L x), w).
Proof. unfold apply_function. fn 29%nat (@fwd_checked D W "sinh"%string (ModelDecimal.sinh L)) "sinh"%string. reflexivity. Qed.
Lemma cosh_is x w : apply_function (to_ctx E d) (lit "cosh") [x] w = (or_over (ModelDecimal.cosh L x), w).
Proof. unfold apply_function. fn 30%nat (@fwd_checked D W "cosh"%string (ModelDecimal.cosh L)) "cosh"%string. reflexivity. Qed.
Lemma tanh_is x w : apply_function (to_ctx E d) (lit "tanh") [x] w = (or_over (ModelDecimal.tanh L x), w).
Proof. unfold apply_function. fn 31%nat (@fwd_checked D W "tanh"%string (ModelDecimal.tanh L)) "tanh"%string. reflexivity. Qed.
End Calls.

(** ** Sizes *)
Lemma exp_50 : exp 50 <= 10 ^ 22.
Proof.
  replace 50 with (INR 50) by (rewrite INR_IZR_INZ; reflexivity). assert (P : forall n, exp (INR n) = exp 1 ^ n).
  { induction n as [|n IH]; [cbn; apply exp_0|]. rewrite S_INR, exp_plus, IH. cbn [pow]. ring. }
  rewrite P. pose proof (Rabs_def2' _ _ E_enclosed) as B. assert (EH : Q2R E_hat <= 2.7183) by (unfold E_hat, Q2R; cbn [Qnum Qden]; lra).
  apply Rle_trans with (2.72 ^ 50); [apply pow_incr; pose proof (exp_pos 1); lra|]. lra.
Qed.
Lemma exp_mono a b : a <= b -> exp a <= exp b.
Proof. intros [H|H]; [left; apply exp_increasing, H|rewrite H; lra]. Qed.

Section Real.
Context {D : Type}.
Variable L : dlib D.
Variable value : D -> Q.
Hypothesis EX : exact_decimals L value.
Notation v := (ProofDecReal.v value).

Lemma exp_plain x : -60 <= v x <= 50 -> exists y, checked_exp L x = Ok (Some y) /\ Rabs (v y - exp (v x)) <= 1.02 * / 10 ^ 16 + exp (v x) * exp (v x) * / 10 ^ 23.
Proof.
  intros H. destruct (exp_near L value EX x) as (y & Y1 & Y2); [apply Rabs_le; lra|apply Rle_trans with (exp 50); [apply exp_mono; lra|apply exp_50]|].
  exists y. split; [exact Y1|]. eapply Rle_trans; [exact Y2|]. assert (T : top (v x) * top (v x) <= 1 + exp (v x) * exp (v x)). { pose proof (exp_pos (v x)). unfold top, Rmax. destruct (Rle_dec 1 (exp (v x))); nra. }
  set (a := top (v x) * top (v x)) in *. set (b := exp (v x) * exp (v x)) in *. clearbody a b. lra.
Qed.
(** The two exponentials behind sinh and cosh *)
Definition M (x : R) : R := exp (Rabs x).
Lemma M_range x : Rabs x <= 50 -> 1 <= M x <= 10 ^ 22.
Proof. intros H. unfold M. split; [rewrite <- exp_0; apply exp_mono, Rabs_pos|]. eapply Rle_trans; [apply exp_mono, H|apply exp_50]. Qed.
Lemma both x : exp x * exp (- x) = 1.
Proof. rewrite <- exp_plus. replace (x + - x) with 0 by ring. apply exp_0. Qed.
Lemma pair_M x : exp x <= M x /\ exp (- x) <= M x /\ exp x * exp x + exp (- x) * exp (- x) <= M x * M x + 1 /\ M x <= exp x + exp (- x).
Proof.
  unfold M. pose proof (exp_pos x). pose proof (exp_pos (- x)). pose proof (both x) as B. destruct (Rle_dec 0 x) as [P|P].
  - rewrite (Rabs_pos_eq x P). assert (1 <= exp x) by (rewrite <- exp_0; apply exp_mono, P). repeat split; try nra.
  - rewrite Rabs_left by lra. assert (1 <= exp (- x)) by (rewrite <- exp_0; apply exp_mono; lra). repeat split; nra.
Qed.
Lemma hyper x : Rabs (v x) <= 50 -> 
  (exists y, ModelDecimal.sinh L x = Ok (Some y) /\ Rabs (v y - Rtrigo_def.sinh (v x)) <= 1.1 * / 10 ^ 16 + M (v x) * M (v x) * / 10 ^ 23) /\
  (exists y, ModelDecimal.cosh L x = Ok (Some y) /\ Rabs (v y - Rtrigo_def.cosh (v x)) <= 1.1 * / 10 ^ 16 + M (v x) * M (v x) * / 10 ^ 23).
Proof.
  intros H. pose proof (M_range _ H) as MR. pose proof (pair_M (v x)) as (P1 & P2 & P3 & _). pose proof (Rabs_def2' _ _ (eq_ind_r (fun z => Rabs z <= 50) H (Rminus_0_r (v x)))) as HX.
  destruct (exp_plain x ltac:(lra)) as (a & A1 & A2). assert (Vn : v (d_neg L x) = - v x) by (apply (v_neg L value EX)).
  destruct (exp_plain (d_neg L x) ltac:(rewrite Vn; lra)) as (b & B1 & B2). rewrite Vn in B2. unfold ModelDecimal.sinh, ModelDecimal.cosh, Rtrigo_def.sinh, Rtrigo_def.cosh.
  pose proof (exp_pos (v x)) as E1. pose proof (exp_pos (- v x)) as E2. set (p := exp (v x)) in *. set (q := exp (- v x)) in *. set (m := M (v x)) in *.
  assert (MM : m <= m * m) by (rewrite <- (Rmult_1_l m) at 1; apply Rmult_le_compat_r; lra). assert (M2 : m * m <= 10 ^ 22 * m) by (apply Rmult_le_compat_r; lra).
  set (pp := p * p) in *. set (qq := q * q) in *. set (mm := m * m) in *.
  assert (PP : 0 <= pp) by (apply Rle_0_sqr). assert (QQ : 0 <= qq) by (apply Rle_0_sqr). clearbody p q m pp qq mm.
  pose proof (Rabs_def2' _ _ A2) as A3. pose proof (Rabs_def2' _ _ B2) as B3.
  assert (V2 : v (TWO L) = 2) by (apply (v_two L value EX)). assert (NZ : ~ (value (TWO L) == 0)%Q) by (apply v_nz; lra).
  assert (G : forall s r t, computes value s r -> Q2R s = t -> Rabs t <= 2.5 * m -> exists z y, r = Some z /\ d_div L z (TWO L) = Some y /\ Rabs (v y - t / 2) <= 4 * m * / 10 ^ 27 + / 10 ^ 27).
  { intros s r t C Et St. destruct (near_rel value s r C) as (z & Z1 & Z2); [rewrite Et; lra|]. rewrite Et in Z2. change (Q2R (value z)) with (v z) in *.
    assert (Vz : Rabs (v z) <= 3 * m). { replace (v z) with ((v z - t) + t) by ring. eapply Rle_trans; [apply Rabs_triang|]. lra. }
    assert (Eq : Q2R (value z / value (TWO L)) = v z / 2) by (rewrite Q2R_div by exact NZ; change (Q2R (value (TWO L))) with (v (TWO L)); rewrite V2; reflexivity).
    assert (Sz : Rabs (v z / 2) <= 1.5 * m) by (unfold Rdiv; rewrite Rabs_mult, (Rabs_pos_eq (/ 2)) by lra; lra).
    destruct (near_rel value _ _ (ed_div _ _ EX z (TWO L) NZ)) as (y & Y1 & Y2); [rewrite Eq; lra|]. rewrite Eq in Y2. change (Q2R (value y)) with (v y) in *. exists z, y. split; [exact Z1|]. split; [exact Y1|].
    pose proof (Rabs_def2' _ _ Z2). pose proof (Rabs_def2' _ _ Y2). pose proof (Rabs_def2' _ _ Sz). apply Rabs_le. lra. }
  split.
  - destruct (G _ _ (v a - v b) (ed_sub _ _ EX a b)) as (z & y & Z & Y1 & Y2).
    + rewrite Q2R_minus. reflexivity.
    + apply Rabs_le. lra.
    + exists y. rewrite A1. cbn [ModelDecimal.call]. rewrite B1. cbn [ModelDecimal.call]. unfold d_sub. rewrite Z. cbn [ModelDecimal.must]. rewrite Y1. split; [reflexivity|]. pose proof (Rabs_def2' _ _ Y2). apply Rabs_le. lra.
  - destruct (G _ _ (v a + v b) (ed_add _ _ EX a b)) as (z & y & Z & Y1 & Y2).
    + rewrite Q2R_plus. reflexivity.
    + apply Rabs_le. lra.
    + exists y. rewrite A1. cbn [ModelDecimal.call]. rewrite B1. cbn [ModelDecimal.call]. unfold d_add. rewrite Z. cbn [ModelDecimal.must]. rewrite Y1. split; [reflexivity|]. pose proof (Rabs_def2' _ _ Y2). apply Rabs_le. lra.
Qed.
Lemma tanh_near x : Rabs (v x) <= 50 -> exists y, ModelDecimal.tanh L x = Ok (Some y) /\ Rabs (v y - Rtrigo_def.tanh (v x)) <= 2 * / 10 ^ 15 + M (v x) * / 10 ^ 22.
Proof.
  intros H. pose proof (M_range _ H) as MR. pose proof (pair_M (v x)) as (P1 & P2 & _ & P4). destruct (hyper x H) as ((s & S1 & S2) & (c & C1 & C2)).
  unfold ModelDecimal.tanh. rewrite S1. cbn [ModelDecimal.call]. rewrite C1. cbn [ModelDecimal.call]. unfold Rtrigo_def.tanh.
  assert (CB : M (v x) / 2 <= Rtrigo_def.cosh (v x)) by (unfold Rtrigo_def.cosh; lra).
  assert (SC : Rabs (Rtrigo_def.sinh (v x)) <= Rtrigo_def.cosh (v x)) by (pose proof (exp_pos (v x)); pose proof (exp_pos (- v x)); unfold Rtrigo_def.sinh, Rtrigo_def.cosh; apply Rabs_le; lra).
  set (S_ := Rtrigo_def.sinh (v x)) in *. set (C_ := Rtrigo_def.cosh (v x)) in *. set (m := M (v x)) in *. clearbody S_ C_ m.
  assert (MM : m * m <= 10 ^ 22 * m) by (apply Rmult_le_compat_r; lra). pose proof (Rabs_def2' _ _ C2) as C3. pose proof (Rabs_def2' _ _ S2) as S3.
  assert (LC : 0.39 * m <= v c) by (set (mm := m * m) in *; clearbody mm; lra).
  assert (NZ : ~ (value c == 0)%Q) by (apply v_nz; lra). assert (Eq : Q2R (value s / value c) = v s / v c) by (rewrite Q2R_div by exact NZ; reflexivity).
  assert (I : 0 < / v c <= / (0.39 * m)) by (split; [apply Rinv_0_lt_compat; lra|apply Rinv_le_contravar; lra]). assert (IM : / (0.39 * m) * m = / 0.39) by (field; lra).
  assert (I1 : / (0.39 * m) <= / 0.39) by (apply Rinv_le_contravar; lra).
  set (err := 1.1 * / 10 ^ 16 + m * m * / 10 ^ 23) in *. assert (E0 : 0 <= err). { unfold err. assert (0 <= m * m) by (apply Rle_0_sqr). lra. }
  assert (EI : err * / v c <= 1.1 * / 10 ^ 16 * / 0.39 + m * / 10 ^ 23 * / 0.39).
  { apply Rle_trans with (err * / (0.39 * m)); [apply Rmult_le_compat_l; lra|]. unfold err. rewrite Rmult_plus_distr_r. replace (m * m * / 10 ^ 23 * / (0.39 * m)) with (m * / 10 ^ 23 * (/ (0.39 * m) * m)) by ring. rewrite IM. apply Rplus_le_compat_r, Rmult_le_compat_l; lra. }
  assert (T : Rabs (S_ / C_) <= 1). { unfold Rdiv. rewrite Rabs_mult, Rabs_inv, (Rabs_pos_eq C_) by lra. apply Rle_trans with (C_ * / C_); [apply Rmult_le_compat_r; [left; apply Rinv_0_lt_compat; lra|exact SC]|rewrite Rinv_r; lra]. }
  assert (Df : Rabs (v s / v c - S_ / C_) <= 2 * (err * / v c)).
  { replace (v s / v c - S_ / C_) with ((v s - S_) * / v c + - (S_ / C_) * ((v c - C_) * / v c)) by (field; lra). eapply Rle_trans; [apply Rabs_triang|]. rewrite !Rabs_mult, Rabs_Ropp, (Rabs_pos_eq (/ v c)) by lra.
    assert (T1 : Rabs (v s - S_) * / v c <= err * / v c) by (apply Rmult_le_compat_r; lra). assert (T2 : Rabs (v c - C_) * / v c <= err * / v c) by (apply Rmult_le_compat_r; lra).
    assert (T3 : Rabs (S_ / C_) * (Rabs (v c - C_) * / v c) <= 1 * (err * / v c)) by (apply Rmult_le_compat; try apply Rabs_pos; [apply Rmult_le_pos; [apply Rabs_pos|lra]|exact T|exact T2]). lra. }
  assert (Sz : Rabs (v s / v c) <= 3). { replace (v s / v c) with ((v s / v c - S_ / C_) + S_ / C_) by ring. eapply Rle_trans; [apply Rabs_triang|]. lra. }
  destruct (near28 value _ _ (ed_div _ _ EX s c NZ)) as (y & Y1 & Y2); [rewrite Eq; lra|]. rewrite Eq in Y2. unfold d_div. rewrite Y1. exists y. split; [reflexivity|]. change (Rabs (v y - v s / v c) <= / 10 ^ 28) in Y2.
  replace (v y - S_ / C_) with ((v y - v s / v c) + (v s / v c - S_ / C_)) by ring. eapply Rle_trans; [apply Rabs_triang|]. lra.
Qed.

(** exp of a number close to s *)
Lemma exp_shift t s d : Rabs (t - s) <= d -> d <= / 10 -> Rabs (exp t - exp s) <= 1.2 * d * exp s.
Proof.
  intros H Hd. assert (D0 : 0 <= d) by (eapply Rle_trans; [apply Rabs_pos|exact H]). replace (exp t) with (exp s * exp (t - s)) by (rewrite <- exp_plus; f_equal; ring).
  apply Rabs_def2' in H. pose proof (exp_pos s) as E0. assert (T : Rabs (exp (t - s) - 1) <= 1.2 * d).
  { pose proof (exp_ineq1_le (t - s)) as A. pose proof (exp_ineq1_le (- (t - s))) as B. pose proof (both (t - s)) as C. pose proof (exp_pos (t - s)) as P. set (a := exp (t - s)) in *. set (b := exp (- (t - s))) in *. clearbody a b.
    apply Rabs_le. split; [lra|]. assert (b >= 1 - d) by lra. assert (a * (1 - d) <= 1) by nra. nra. }
  replace (exp s * exp (t - s) - exp s) with (exp s * (exp (t - s) - 1)) by ring. rewrite Rabs_mult, (Rabs_pos_eq (exp s)) by lra. nra.
Qed.
Lemma power_near fuel x e : (40 <= fuel)%nat -> / 20 <= v x -> (forall n, ~ (value e == inject_Z n)%Q) -> Rabs (v e) <= 10 ^ 6 -> Rabs (v e * ln (v x)) <= 49 ->
  exists y, checked_powd L fuel x e = Ok (Some y) /\ Rabs (v y - Rpower (v x) (v e)) <= 2 * / 10 ^ 16 + 2 * / 10 ^ 16 * Rabs (v e) * Rpower (v x) (v e) + 2 * / 10 ^ 23 * (Rpower (v x) (v e) * Rpower (v x) (v e)).
Proof.
  intros Hf Hx He Hs Hl. assert (I : is_integer L e = false). { apply not_true_iff_false. rewrite (is_integer_iff L value EX). intros (z & Z). exact (He z Z). }
  assert (B0 : is_zero L x = false). { apply not_true_iff_false. rewrite (is_zero_iff L value EX). intros Z. apply Qeq_eqR in Z. rewrite Q2R_0 in Z. change (v x = 0) in Z. lra. }
  unfold checked_powd. rewrite I, B0. unfold Rpower. pose proof (Rabs_pos (v e)) as E0. pose proof (exp_pos (v e * ln (v x))) as P0.
  (* the exponential of a decimal close to e ln x *)
  assert (G : forall b, Rabs (v b - v e * ln (v x)) <= 1.31 * / 10 ^ 16 * Rabs (v e) + / 10 ^ 24 -> exists y, checked_exp L b = Ok (Some y) /\
     Rabs (v y - exp (v e * ln (v x))) <= 2 * / 10 ^ 16 + 2 * / 10 ^ 16 * Rabs (v e) * exp (v e * ln (v x)) + 2 * / 10 ^ 23 * (exp (v e * ln (v x)) * exp (v e * ln (v x)))).
  { intros b Hb. assert (Small : 1.31 * / 10 ^ 16 * Rabs (v e) + / 10 ^ 24 <= 1.4 * / 10 ^ 10) by lra. pose proof (Rabs_def2' _ _ Hb) as Hb'. pose proof (Rabs_def2' _ _ (eq_ind_r (fun z => Rabs z <= 49) Hl (Rminus_0_r _))) as Hl'.
    destruct (exp_plain b ltac:(lra)) as (y & Y1 & Y2). exists y. split; [exact Y1|]. pose proof (exp_shift _ _ _ Hb ltac:(lra)) as S1.
    set (P := exp (v e * ln (v x))) in *. set (q := exp (v b)) in *. set (r := Rabs (v e)) in *. assert (Q0 : 0 < q) by apply exp_pos. clearbody P q r. set (k := v e * ln (v x)) in *. clearbody k.
    assert (S2 : Rabs (q - P) <= / 10 ^ 9 * P). { eapply Rle_trans; [exact S1|]. apply Rmult_le_compat_r; lra. }
    apply Rabs_def2' in S2. assert (QP : q <= 1.1 * P) by lra. assert (QQ : q * q <= 1.21 * (P * P)). { apply Rle_trans with ((1.1 * P) * (1.1 * P)); [apply Rmult_le_compat; lra|lra]. }
    assert (PP : 2 * P <= 1 + P * P) by (pose proof (Rle_0_sqr (P - 1)) as T; unfold Rsqr in T; lra).
    assert (RP : 0 <= r * P) by (apply Rmult_le_pos; lra).
    replace (v y - P) with ((v y - q) + (q - P)) by ring. eapply Rle_trans; [apply Rabs_triang|].
    replace (1.2 * (1.31 * / 10 ^ 16 * r + / 10 ^ 24) * P) with (1.572 * / 10 ^ 16 * (r * P) + 1.2 * / 10 ^ 24 * P) in S1 by (replace 1.572 with (1.2 * 1.31) by lra; ring). replace (2 * / 10 ^ 16 * r * P) with (2 * / 10 ^ 16 * (r * P)) by ring.
    set (rp := r * P) in *. set (pp := P * P) in *. set (qq := q * q) in *. clearbody rp pp qq. lra. }
  destruct (is_one L x) eqn:B1.
  { exists x. split; [reflexivity|]. apply (is_one_iff L value EX), Qeq_eqR in B1. rewrite Q2R_1 in B1. change (v x = 1) in B1. rewrite B1, ln_1, Rmult_0_r, exp_0, Rminus_diag_eq, Rabs_R0 by reflexivity. lra. }
  destruct (d_eq L x (cE L)) eqn:B2.
  { apply G. apply (d_eq_iff L value EX), v_eq in B2. assert (Vc : v (cE L) = Q2R E_hat) by (apply Qeq_eqR, (lit28 L value EX); reflexivity). rewrite B2, Vc. pose proof (Rabs_def2' _ _ E_enclosed) as EB. assert (EH : 2.7 <= Q2R E_hat <= 2.72) by (unfold E_hat, Q2R; cbn [Qnum Qden]; lra).
    assert (LE : Rabs (ln (Q2R E_hat) - 1) <= / 10 ^ 28). { rewrite <- (ln_exp 1) at 1. eapply Rle_trans; [apply (ln_lip (Q2R E_hat) (exp 1) 1); lra|]. rewrite Rabs_minus_sym. pose proof E_enclosed. lra. }
    replace (v e - v e * ln (Q2R E_hat)) with (- (v e * (ln (Q2R E_hat) - 1))) by ring. rewrite Rabs_Ropp, Rabs_mult. apply Rle_trans with (Rabs (v e) * / 10 ^ 28); [apply Rmult_le_compat_l; lra|lra]. }
  destruct (ln_near L value EX fuel x Hf Hx) as (l & L1 & L2). rewrite L1. cbn [ModelDecimal.call]. set (lx := ln (v x)) in *.
  assert (Le : Rabs (v l * v e - v e * lx) <= 1.3 * / 10 ^ 16 * Rabs (v e)). { replace (v l * v e - v e * lx) with ((v l - lx) * v e) by ring. rewrite Rabs_mult. apply Rmult_le_compat_r; lra. }
  assert (Eq : Q2R (value l * value e) = v l * v e) by (apply Q2R_mult).
  destruct (near24 value _ _ (ed_mul _ _ EX l e)) as (b & B3 & B4). { rewrite Eq. replace (v l * v e) with ((v l * v e - v e * lx) + v e * lx) by ring. eapply Rle_trans; [apply Rabs_triang|]. lra. }
  rewrite Eq in B4. unfold d_mul. rewrite B3. cbn [ModelDecimal.ask]. apply G. change (Rabs (v b - v l * v e) <= / 10 ^ 24) in B4.
  replace (v b - v e * lx) with ((v b - v l * v e) + (v l * v e - v e * lx)) by ring. eapply Rle_trans; [apply Rabs_triang|]. lra.
Qed.
End Real.

(** ** The exponential from -60 to 50 *)
Theorem C73_exp : forall D W (L : dlib D) value, exact_decimals L value -> forall fuel (rnd : W -> f64 * W) E dbg cf d, decimal_context L fuel rnd E dbg cf = Ok d ->
  forall x w, (inject_Z (-60) <= value x <= inject_Z 50)%Q ->
  exists y, apply_function (to_ctx E d) (lit "exp") [x] w = (Ok y, w) /\ Rabs (Q2R (value y) - exp (Q2R (value x))) <= 2 / 10 ^ 16 + (exp (Q2R (value x))) ^ 2 / 10 ^ 23.
Proof.
  intros D W L value EX fuel rnd E dbg cf d Hd x w [A B]. apply Qle_Rle in A. apply Qle_Rle in B. rewrite Q2R_int in A, B. rewrite (exp_is L fuel rnd E dbg cf d Hd).
  destruct (exp_plain L value EX x (conj A B)) as (y & -> & Y). exists y. split; [reflexivity|]. eapply Rle_trans; [exact Y|]. change (Q2R (value x)) with (ProofDecReal.v value x). set (e := exp (ProofDecReal.v value x)). clearbody e.
  replace (e ^ 2 / 10 ^ 23) with (e * e * / 10 ^ 23) by (cbn [pow]; unfold Rdiv; ring). lra.
Qed.
Print Assumptions C73_exp.

(** ** The hyperbolic functions from -50 to 50 *)
Theorem C73_hyperbolic : forall D W (L : dlib D) value, exact_decimals L value -> forall fuel (rnd : W -> f64 * W) E dbg cf d, decimal_context L fuel rnd E dbg cf = Ok d ->
  forall x w, (Qabs (value x) <= inject_Z 50)%Q -> let X := Q2R (value x) in
  (exists y, apply_function (to_ctx E d) (lit "sinh") [x] w = (Ok y, w) /\ Rabs (Q2R (value y) - Rtrigo_def.sinh X) <= 2 / 10 ^ 16 + exp (Rabs X) ^ 2 / 10 ^ 23) /\
  (exists y, apply_function (to_ctx E d) (lit "cosh") [x] w = (Ok y, w) /\ Rabs (Q2R (value y) - Rtrigo_def.cosh X) <= 2 / 10 ^ 16 + exp (Rabs X) ^ 2 / 10 ^ 23) /\
  (exists y, apply_function (to_ctx E d) (lit "tanh") [x] w = (Ok y, w) /\ Rabs (Q2R (value y) - Rtrigo_def.tanh X) <= 2 / 10 ^ 15 + exp (Rabs X) / 10 ^ 22).
Proof.
  intros D W L value EX fuel rnd E dbg cf d Hd x w A X. apply Qle_Rle in A. rewrite Q2R_abs, Q2R_int in A. rewrite (sinh_is L fuel rnd E dbg cf d Hd), (cosh_is L fuel rnd E dbg cf d Hd), (tanh_is L fuel rnd E dbg cf d Hd).
  destruct (hyper L value EX x A) as ((s & -> & S1) & (c & -> & C1)). destruct (tanh_near L value EX x A) as (t & -> & T1). unfold M in *. change (ProofDecReal.v value x) with X in *.
  set (e := exp (Rabs X)) in *. replace (e ^ 2 / 10 ^ 23) with (e * e * / 10 ^ 23) by (cbn [pow]; unfold Rdiv; ring). clearbody e. split; [|split].
  - exists s. split; [reflexivity|]. eapply Rle_trans; [exact S1|]. lra.
  - exists c. split; [reflexivity|]. eapply Rle_trans; [exact C1|]. lra.
  - exists t. split; [reflexivity|]. eapply Rle_trans; [exact T1|]. lra.
Qed.
Print Assumptions C73_hyperbolic.

(** ** Powers whose exponent is not an integer *)
Theorem C73_power : forall D W (L : dlib D) value, exact_decimals L value -> forall fuel (rnd : W -> f64 * W) E dbg cf d, decimal_context L fuel rnd E dbg cf = Ok d ->
  forall x e w, (40 <= fuel)%nat -> (1 # 20 <= value x)%Q -> (forall n, ~ (value e == inject_Z n)%Q) -> (Qabs (value e) <= inject_Z 1000000)%Q ->
  let X := Q2R (value x) in let Y := Q2R (value e) in Rabs (Y * ln X) <= 49 ->
  exists y, apply_binary (to_ctx E d) (lit "^") x e w = (Ok y, w) /\
    Rabs (Q2R (value y) - Rpower X Y) <= 2 / 10 ^ 16 * (1 + Rabs Y * Rpower X Y) + 2 / 10 ^ 23 * Rpower X Y ^ 2.
Proof.
  intros D W L value EX fuel rnd E dbg cf d Hd x e w Hf Hx He Hs X Y Hl. rewrite (pow_is D W L fuel rnd E dbg cf d Hd). apply Qle_Rle in Hs. rewrite Q2R_abs, Q2R_int in Hs.
  assert (Hx' : / 20 <= X). { apply Qle_Rle in Hx. eapply Rle_trans; [|exact Hx]. unfold Q2R. cbn. lra. }
  destruct (power_near L value EX fuel x e Hf Hx' He ltac:(eapply Rle_trans; [exact Hs|lra]) Hl) as (y & Y1 & Y2). exists y. unfold pow_of. rewrite Y1. split; [reflexivity|].
  change (Q2R (value y)) with (ProofDecReal.v value y). change (ProofDecReal.v value x) with X in Y2. change (ProofDecReal.v value e) with Y in Y2. eapply Rle_trans; [exact Y2|]. right. set (p := Rpower X Y). cbn [pow]. unfold Rdiv. ring.
Qed.
Print Assumptions C73_power.

(** ** Outside: the fraction of a hundred levels is not the exponential. With the reference library, the exponential of a
    million is negative, that of 60 is off in the fourth digit, that of 66 by a quarter; no error is reported. *)
Theorem C73_large_arguments_refuted :
  (exists q, ref_fun "exp" [num 1000000 0] = Ok q /\ (q < 0)%Q) /\ (exists q, ref_fun "exp" [num (-1000000) 0] = Ok q /\ (q < - (9 # 10))%Q) /\
  (exists q, ref_fun "exp" [num 66 0] = Ok q /\ 10 ^ 28 <= exp 66 - Q2R q).
Proof.
  split; [|split].
  - eexists. split; [vm_compute; reflexivity|]. vm_compute. reflexivity.
  - eexists. split; [vm_compute; reflexivity|]. vm_compute. reflexivity.
  - eexists. split; [vm_compute; reflexivity|].
    assert (P : forall n, exp (INR n) = exp 1 ^ n). { induction n as [|n IH]; [cbn; apply exp_0|]. rewrite S_INR, exp_plus, IH. cbn [pow]. ring. }
    replace 66 with (INR 66) by (rewrite INR_IZR_INZ; reflexivity). rewrite P. assert (B : 2.718281 ^ 66 <= exp 1 ^ 66).
    { apply pow_incr. pose proof (Rabs_def2' _ _ E_enclosed) as B. assert (EH : 2.7182815 <= Q2R E_hat) by (unfold E_hat, Q2R; cbn [Qnum Qden]; lra). lra. }
    unfold Q2R. cbn [Qnum Qden]. set (t := exp 1 ^ 66) in *. clearbody t. lra.
Qed.
Print Assumptions C73_large_arguments_refuted.
Example C73_case : (inject_Z (-60) <= val (num 25 1) <= inject_Z 50)%Q /\ (exists q, ref_fun "exp" [num 25 1] = Ok q /\ (1218249 # 100000 < q < 121825 # 10000)%Q) /\
  (1 # 20 <= val (num 2 0))%Q /\ (forall n, ~ (val (num 5 1) == inject_Z n)%Q) /\ Rabs (Q2R (val (num 5 1)) * ln (Q2R (val (num 2 0)))) <= 49.
Proof.
  split; [split; vm_compute; discriminate|]. split; [eexists; split; [vm_compute; reflexivity|split; vm_compute; reflexivity]|]. split; [vm_compute; discriminate|]. split.
  - replace (val (num 5 1)) with (5 # 10)%Q by (vm_compute; reflexivity). intros n H. unfold Qeq in H. cbn in H. lia.
  - replace (val (num 5 1)) with (5 # 10)%Q by (vm_compute; reflexivity). replace (val (num 2 0)) with (inject_Z 2) by (vm_compute; reflexivity). rewrite Q2R_int. assert (0 < ln 2 <= 2 - 1).
    { split; [rewrite <- ln_1; apply ln_increasing; lra|]. pose proof (exp_ineq1_le (ln 2)). rewrite exp_ln in H by lra. lra. }
    unfold Q2R. cbn [Qnum Qden]. rewrite Rabs_pos_eq; lra.
Qed.
