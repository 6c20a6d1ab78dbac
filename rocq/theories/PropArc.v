(** * Square roots, inverse trigonometric and inverse hyperbolic functions in decimal contexts (C77)

    The theorems hold for every decimal library whose arithmetic is as documented (SpecDecimal.exact_decimals) and, where a
    square root is taken, whose conversions from and to doubles are as SpecRoots.good_roots says. [sqrt], [sin], [cos], [PI] and
    [Rtrigo_def.sinh], [Rtrigo_def.cosh], [Rtrigo_def.tanh] are those of the real numbers of Coq's standard library. *)
From Coq Require Import List NArith ZArith QArith Qabs Qround Qreals Reals Bool Lia Lra String.
From Verif Require Import ModelBase ModelContext ModelEvaluator ModelText ModelDefault ModelFloat ModelNum ModelOps ModelStd ModelDecimal
  SpecText SpecExpr SpecTokens SpecOps SpecDecimal SpecRoots ProofText ProofDefault ProofRpn ProofTokens2 ProofBuild ProofCtx ProofWf ProofOps3 ProofDecRef ProofDecimal ProofDecimal2 ProofDecTrig ProofDecFun ProofDecFun2 PropDecimal PropDecimal2 PropDecimal3
  ProofReals ProofDecReal ProofDecReal2 ProofDecLn ProofDecAtan ProofDecCbrt ProofDecRoot ProofDecArc ProofDecArc2 ProofDecHyp ProofDecRefRoot.
Import ListNotations.
Local Open Scope R_scope.

Section Calls.
Context {D W : Type}.
Variable L : dlib D.
Variable fuel : nat.
Variable rnd : W -> f64 * W.
Variable E : env.
Variable dbg : bool.
Variable cf : config.
Variable d : dctx D W.
Hypothesis Hd : decimal_context L fuel rnd E dbg cf = Ok d.
Lemma sqrt_is x w : apply_function (to_ctx E d) (lit "sqrt") [x] w = (or_over (checked_sqrt L fuel x), w).
Proof. unfold apply_function. fn 6%nat (@fwd_checked D W "sqrt"%string (checked_sqrt L fuel)) "sqrt"%string. reflexivity. Qed.
Lemma radians_is x w : apply_function (to_ctx E d) (lit "to_radians") [x] w = (or_over (to_radians L x), w).
Proof. unfold apply_function. fn 15%nat (@fwd_checked D W "to_radians"%string (to_radians L)) "to_radians"%string. reflexivity. Qed.
Lemma asin_is x w : apply_function (to_ctx E d) (lit "asin") [x] w = (or_over (ModelDecimal.call (to_radians L x) (ModelDecimal.asin L fuel)), w).
Proof. unfold apply_function. fn 23%nat (@trig_checked D W L "asin"%string (ModelDecimal.asin L fuel)) "asin"%string. reflexivity. Qed.
Lemma acos_is x w : apply_function (to_ctx E d) (lit "acos") [x] w = (or_over (ModelDecimal.call (to_radians L x) (ModelDecimal.acos L fuel)), w).
Proof. unfold apply_function. fn 24%nat (@trig_checked D W L "acos"%string (ModelDecimal.acos L fuel)) "acos"%string. reflexivity. Qed.
Lemma acsc_is x w : apply_function (to_ctx E d) (lit "acsc") [x] w = (or_over (ModelDecimal.call (inv L x) (ModelDecimal.asin L fuel)), w).
Proof. unfold apply_function. fn 26%nat (@arc_rec_checked D W L "acsc"%string (ModelDecimal.asin L fuel)) "acsc"%string. reflexivity. Qed.
Lemma asec_is x w : apply_function (to_ctx E d) (lit "asec") [x] w = (or_over (ModelDecimal.call (inv L x) (ModelDecimal.acos L fuel)), w).
Proof. unfold apply_function. fn 27%nat (@arc_rec_checked D W L "asec"%string (ModelDecimal.acos L fuel)) "asec"%string. reflexivity. Qed.
Lemma asinh_is x w : apply_function (to_ctx E d) (lit "asinh") [x] w = (or_over (ModelDecimal.asinh L fuel x), w).
Proof. unfold apply_function. fn 35%nat (@fwd_checked D W "asinh"%string (ModelDecimal.asinh L fuel)) "asinh"%string. reflexivity. Qed.
Lemma acosh_is x w : apply_function (to_ctx E d) (lit "acosh") [x] w = (or_over (ModelDecimal.acosh L fuel x), w).
Proof. unfold apply_function. fn 36%nat (@fwd_checked D W "acosh"%string (ModelDecimal.acosh L fuel)) "acosh"%string. reflexivity. Qed.
Lemma atanh_is x w : apply_function (to_ctx E d) (lit "atanh") [x] w = (or_over (ModelDecimal.atanh L fuel x), w).
Proof. unfold apply_function. fn 37%nat (@fwd_checked D W "atanh"%string (ModelDecimal.atanh L fuel)) "atanh"%string. reflexivity. Qed.
Lemma acsch_is x w : apply_function (to_ctx E d) (lit "acsch") [x] w = (or_over (ModelDecimal.call (ModelDecimal.asinh L fuel x) (inv L)), w).
Proof. unfold apply_function. fn 38%nat (@fwd_inv D W L "acsch"%string (ModelDecimal.asinh L fuel)) "acsch"%string. reflexivity. Qed.
Lemma asech_is x w : apply_function (to_ctx E d) (lit "asech") [x] w = (or_over (ModelDecimal.call (ModelDecimal.acosh L fuel x) (ModelDecimal.checked_inv L)), w).
Proof. unfold apply_function. fn 39%nat (@fwd_checked_inv D W L "asech"%string (ModelDecimal.acosh L fuel)) "asech"%string. reflexivity. Qed.
Lemma acoth_is x w : apply_function (to_ctx E d) (lit "acoth") [x] w = (or_over (ModelDecimal.call (ModelDecimal.atanh L fuel x) (ModelDecimal.checked_inv L)), w).
Proof. unfold apply_function. fn 40%nat (@fwd_checked_inv D W L "acoth"%string (ModelDecimal.atanh L fuel)) "acoth"%string. reflexivity. Qed.
End Calls.

(** ** Square roots *)
Theorem C77_sqrt : forall D W (L : dlib D) value, exact_decimals L value -> good_roots L value ->
  forall fuel (rnd : W -> f64 * W) E dbg cf d, decimal_context L fuel rnd E dbg cf = Ok d ->
  forall x y w, (0 <= value x)%Q -> apply_function (to_ctx E d) (lit "sqrt") [x] w = (Ok y, w) ->
  let r := sqrt (Q2R (value x)) in Rabs (Q2R (value y) - r) <= (5 + 160 * r) / 10 ^ 28.
Proof.
  intros D W L value EX GR fuel rnd E dbg cf d Hd x y w Hx H r. rewrite (sqrt_is L fuel rnd E dbg cf d Hd) in H. apply fun_ok in H. apply Qle_Rle in Hx. rewrite Q2R_0 in Hx.
  destruct (sqrt_near L value EX GR fuel x y Hx H) as (R & _). change (Q2R (value y)) with (ProofDecReal.v value y). change (sqrt (ProofDecReal.v value x)) with r in R. rewrite e28_is in R. lra.
Qed.
Print Assumptions C77_sqrt.

(** ** Arcsine and arccosine: of the number [to_radians] returns for the argument *)
Theorem C77_arcsine : forall D W (L : dlib D) value, exact_decimals L value -> good_roots L value ->
  forall fuel (rnd : W -> f64 * W) E dbg cf d, decimal_context L fuel rnd E dbg cf = Ok d -> (1 <= fuel)%nat ->
  forall x r y w, apply_function (to_ctx E d) (lit "to_radians") [x] w = (Ok r, w) -> (Qabs (value r) <= 1)%Q ->
  (apply_function (to_ctx E d) (lit "asin") [x] w = (Ok y, w) -> forall t, - (PI / 2) <= t <= PI / 2 -> sin t = Q2R (value r) ->
    Rabs (Q2R (value y) - t) <= 3 / 10 ^ 14 /\ (Rabs (Q2R (value r)) <= 1 - / 10 ^ 20 -> Rabs (Q2R (value y) - t) <= 4 / 10 ^ 16)) /\
  (apply_function (to_ctx E d) (lit "acos") [x] w = (Ok y, w) -> forall t, 0 <= t <= PI -> cos t = Q2R (value r) ->
    Rabs (Q2R (value y) - t) <= 3 / 10 ^ 14 /\ (Rabs (Q2R (value r)) <= 1 - / 10 ^ 20 -> Rabs (Q2R (value y) - t) <= 4 / 10 ^ 16)).
Proof.
  intros D W L value EX GR fuel rnd E dbg cf d Hd Hf x r y w Hr B. rewrite (radians_is L fuel rnd E dbg cf d Hd) in Hr. apply fun_ok in Hr. apply Qle_Rle in B. rewrite Q2R_abs, Q2R_1 in B. unfold Rdiv. split; intros H t Ht Hs.
  - rewrite (asin_is L fuel rnd E dbg cf d Hd), Hr in H. cbn [ModelDecimal.call] in H. apply fun_ok in H. exact (asin_near L value EX GR fuel Hf r y t B H Ht Hs).
  - rewrite (acos_is L fuel rnd E dbg cf d Hd), Hr in H. cbn [ModelDecimal.call] in H. apply fun_ok in H. exact (acos_near L value EX GR fuel Hf r y t B H Ht Hs).
Qed.
Print Assumptions C77_arcsine.

(** So [asin] of a number is less than half of the angle whose sine that number is. *)
Lemma below_sine u : 0 <= u -> sin u <= u.
Proof. intros [H| <-]; [left; apply sin_lt_x, H|rewrite sin_0; lra]. Qed.
Theorem C77_arcsine_refuted : forall D W (L : dlib D) value, exact_decimals L value -> good_roots L value ->
  forall fuel (rnd : W -> f64 * W) E dbg cf d, decimal_context L fuel rnd E dbg cf = Ok d -> (1 <= fuel)%nat ->
  forall x y w, ((1 # 1000) <= value x <= 1)%Q -> apply_function (to_ctx E d) (lit "asin") [x] w = (Ok y, w) ->
  forall t, 0 <= t <= PI / 2 -> sin t = Q2R (value x) -> Q2R (value y) < t / 2.
Proof.
  intros D W L value EX GR fuel rnd E dbg cf d Hd Hf x y w [X1 X2] H t Ht Hs. apply Qle_Rle in X1, X2. rewrite Q2R_1 in X2. change (Q2R (value x)) with (ProofDecReal.v value x) in *. change (Q2R (value y)) with (ProofDecReal.v value y). set (v := ProofDecReal.v value) in *.
  assert (X3 : / 1000 <= v x) by (revert X1; unfold Q2R at 1; cbn [Qnum Qden]; lra). pose proof pi_b as PB. assert (P : 3.14 <= PI <= 3.15) by (apply Rabs_def2' in PB; lra). clear PB.
  destruct (radians_near L value EX x) as (r & R1 & R2 & _); [fold v; apply Rabs_le; lra|]. fold v in R2. rewrite (asin_is L fuel rnd E dbg cf d Hd), R1 in H. cbn [ModelDecimal.call] in H. apply fun_ok in H. apply Rabs_def2' in R2.
  assert (XP : v x * PI <= v x * 3.15) by (apply Rmult_le_compat_l; lra). assert (XP0 : 0 <= v x * PI) by (apply Rmult_le_pos; lra). assert (RB : - / 10 ^ 15 <= v r <= 0.0176 * v x) by lra.
  set (u := Ratan.asin (v r)). pose proof (asin_bound (v r)) as UB. fold u in UB. assert (US : sin u = v r) by (apply sin_asin; lra). destruct (asin_near L value EX GR fuel Hf r y u) as (_ & Y); [fold v; apply Rabs_le; lra|exact H|exact UB|exact US|]. fold v in Y.
  specialize (Y ltac:(apply Rabs_le; lra)). apply Rabs_def2' in Y. pose proof (below_sine t ltac:(lra)) as TS.
  assert (UU : u <= 0.08 * v x).
  { destruct (arc_lip u 0 (0.0176 * v x)) as [_ A]; [lra|lra|rewrite sin_0, Rminus_0_r, US; apply Rabs_le; lra|].
    specialize (A 0.99 ltac:(lra)). assert (C : 0.99 <= cos u). { apply Rsqr_incr_0; [|lra|apply cos_ge_0; lra]. pose proof (sin2_cos2 u) as S2. rewrite US in S2. unfold Rsqr in *. assert (v r * v r <= 0.0176 * 0.0176); [|lra]. assert (Rabs (v r) <= 0.0176) by (apply Rabs_le; lra). assert (Rabs (v r) * Rabs (v r) <= 0.0176 * 0.0176) by (apply Rmult_le_compat; try apply Rabs_pos; assumption). rewrite <- Rabs_mult, Rabs_pos_eq in H1 by apply Rle_0_sqr. exact H1. }
    specialize (A C). rewrite Rminus_0_r in A. pose proof (Rle_abs u). lra. }
  lra.
Qed.
Print Assumptions C77_arcsine_refuted.

(** ** Arccosecant and arcsecant: of the argument itself *)
Lemma reciprocal D (L : dlib D) value (EX : exact_decimals L value) x i : (1 <= Qabs (value x))%Q -> inv L x = Ok (Some i) ->
  Rabs (ProofDecReal.v value i - / ProofDecReal.v value x) <= / 10 ^ 28 /\ Rabs (ProofDecReal.v value i) <= 1.
Proof.
  intros Hx H. apply Qle_Rle in Hx. rewrite Q2R_abs, Q2R_1 in Hx. set (v := ProofDecReal.v value) in *. change (Q2R (value x)) with (v x) in Hx. assert (N0 : v x <> 0) by (intros Q; rewrite Q, Rabs_R0 in Hx; lra).
  assert (NZ : ~ (value x == 0)%Q) by (intros Q; apply N0; unfold v, ProofDecReal.v; rewrite <- Q2R_0; apply Qeq_eqR, Q). pose proof (v_one L value EX) as V1. fold v in V1.
  assert (Eq : Q2R (value (ONE L) / value x) = / v x). { rewrite Q2R_div by exact NZ. change (v (ONE L) / v x = / v x). rewrite V1. unfold Rdiv. ring. }
  assert (IB : Rabs (/ v x) <= 1). { rewrite Rabs_inv. rewrite <- Rinv_1. apply Rinv_le_contravar; lra. }
  destruct (near28 value _ _ (ed_div _ _ EX (ONE L) x NZ)) as (i' & I1 & I2); [rewrite Eq; lra|]. unfold inv, d_div in H. rewrite I1 in H. cbn [must some] in H. injection H as <-. rewrite Eq in I2. fold v in I2. split; [exact I2|].
  assert (U : forall z, Rabs (v z) <= 1 + e28 * e28 -> Rabs (v z) <= 1).
  { intros z Z. assert (W1 : e28 * e28 < e28) by (rewrite e28_is; lra). assert (G : forall z, v z <= 1 + e28 * e28 -> v z <= 1). { intros z' Z'. apply Rnot_lt_le. intros G2. pose proof (above_one L value EX z' G2) as A. fold v in A. lra. }
    apply Rabs_def2' in Z. apply Rabs_le. split; [|apply G; lra]. assert (N : v (d_neg L z) <= 1) by (apply G; unfold v; rewrite (v_neg L value EX); fold v; lra). unfold v in N. rewrite (v_neg L value EX) in N. fold v in N. lra. }
  destruct (Rle_lt_or_eq_dec _ _ Hx) as [G|G].
  - apply U. assert (GX : 1 + e28 <= Rabs (v x)). { unfold Rabs in *. destruct (Rcase_abs (v x)). - pose proof (above_one L value EX (d_neg L x)) as A. rewrite (v_neg L value EX) in A. fold v in A. apply A, G.
      - apply (above_one L value EX), G. }
    assert (IX : Rabs (/ v x) <= 1 - e28 + e28 * e28). { rewrite Rabs_inv. assert (E0 : 0 < e28) by (rewrite e28_is; lra). apply Rle_trans with (/ (1 + e28)); [apply Rinv_le_contravar; lra|]. apply Rmult_le_reg_r with (1 + e28); [lra|]. rewrite Rinv_l by lra. replace ((1 - e28 + e28 * e28) * (1 + e28)) with (1 + e28 * e28 * e28) by ring. assert (0 < e28 * e28 * e28) by (apply Rmult_lt_0_compat; [apply Rmult_lt_0_compat|]; exact E0). lra. }
    replace (v i') with ((v i' - / v x) + / v x) by ring. eapply Rle_trans; [apply Rabs_triang|]. rewrite <- e28_is in I2. lra.
  - assert (RE : representable (value (ONE L) / value x)).
    { assert (Q1 : (value x == inject_Z 1 \/ value x == inject_Z (-1))%Q). { unfold Rabs in G. destruct (Rcase_abs (v x)); [right|left]; apply eqR_Qeq; rewrite Q2R_int; change (Q2R (value x)) with (v x); lra. }
      destruct Q1 as [Q1|Q1]; [apply (rep_comp (inject_Z 1))|apply (rep_comp (inject_Z (-1)))]; try (apply int_rep; reflexivity); rewrite Q1, (one_val L value EX); reflexivity. }
    destruct (computes_exact value _ _ (ed_div _ _ EX (ONE L) x NZ) RE) as (i2 & J1 & J2). assert (i2 = i') by congruence. subst i2. apply Qeq_eqR in J2. rewrite Eq in J2. change (v i' = / v x) in J2. rewrite J2. exact IB.
Qed.
Theorem C77_arcsecant : forall D W (L : dlib D) value, exact_decimals L value -> good_roots L value ->
  forall fuel (rnd : W -> f64 * W) E dbg cf d, decimal_context L fuel rnd E dbg cf = Ok d -> (1 <= fuel)%nat ->
  forall x y w, (1 <= Qabs (value x))%Q -> let X := Q2R (value x) in
  (apply_function (to_ctx E d) (lit "acsc") [x] w = (Ok y, w) -> forall t, - (PI / 2) <= t <= PI / 2 -> sin t = 1 / X ->
    Rabs (Q2R (value y) - t) <= 6 / 10 ^ 14 /\ (1 + / 10 ^ 19 <= Rabs X -> Rabs (Q2R (value y) - t) <= 5 / 10 ^ 16)) /\
  (apply_function (to_ctx E d) (lit "asec") [x] w = (Ok y, w) -> forall t, 0 <= t <= PI -> cos t = 1 / X ->
    Rabs (Q2R (value y) - t) <= 6 / 10 ^ 14 /\ (1 + / 10 ^ 19 <= Rabs X -> Rabs (Q2R (value y) - t) <= 5 / 10 ^ 16)).
Proof.
  intros D W L value EX GR fuel rnd E dbg cf d Hd Hf x y w Hx X. set (v := ProofDecReal.v value) in *. change (Q2R (value y)) with (v y).
  assert (HX : 1 <= Rabs X) by (apply Qle_Rle in Hx; rewrite Q2R_abs, Q2R_1 in Hx; exact Hx). assert (X0 : X <> 0) by (intros Q; rewrite Q, Rabs_R0 in HX; lra).
  assert (CORE : forall i t t' e, Rabs (v i - / X) <= / 10 ^ 28 -> Rabs (v i) <= 1 -> - (PI / 2) <= t <= PI / 2 -> - (PI / 2) <= t' <= PI / 2 -> sin t = / X -> sin t' = v i ->
    (Rabs e <= 3 * / 10 ^ 14 /\ (Rabs (v i) <= 1 - / 10 ^ 20 -> Rabs e <= 4 * / 10 ^ 16)) -> Rabs (t - t') + Rabs e <= 6 / 10 ^ 14 /\ (1 + / 10 ^ 19 <= Rabs X -> Rabs (t - t') + Rabs e <= 5 / 10 ^ 16)).
  { intros i t t' e I1 I2 T1 T2 S1 S2 [E1 E2]. destruct (arc_lip t t' (/ 10 ^ 28) T1 T2) as [A1 A2]; [rewrite S1, S2, Rabs_minus_sym; exact I1|]. split.
    - assert (Rabs (t - t') <= 2.9 * / 10 ^ 14); [|lra]. apply Rsqr_incr_0; [unfold Rsqr; lra|apply Rabs_pos|lra].
    - intros XB. assert (IX : Rabs (/ X) <= 1 - 0.9 * / 10 ^ 19). { rewrite Rabs_inv. apply Rle_trans with (/ (1 + / 10 ^ 19)); [apply Rinv_le_contravar; lra|]. apply Rmult_le_reg_r with (1 + / 10 ^ 19); [lra|]. rewrite Rinv_l by lra. lra. }
      assert (IV : Rabs (v i) <= 1 - / 10 ^ 20). { replace (v i) with ((v i - / X) + / X) by ring. eapply Rle_trans; [apply Rabs_triang|]. lra. }
      specialize (E2 IV). assert (C : / 10 ^ 10 <= cos t). { apply Rsqr_incr_0; [|lra|apply cos_ge_0; lra]. pose proof (sin2_cos2 t) as Q. rewrite S1 in Q. unfold Rsqr in *. assert (M : Rabs (/ X) * Rabs (/ X) <= 1 * (1 - 0.9 * / 10 ^ 19)) by (apply Rmult_le_compat; try apply Rabs_pos; lra). rewrite <- Rabs_mult, Rabs_pos_eq in M by apply Rle_0_sqr. lra. }
      specialize (A2 (/ 10 ^ 10) ltac:(lra) C). lra. }
  split; intros H t Ht Hs.
  - rewrite (acsc_is L fuel rnd E dbg cf d Hd) in H. destruct (inv L x) as [[i|]|k|] eqn:I; try discriminate. cbn [ModelDecimal.call] in H. apply fun_ok in H. destruct (reciprocal D L value EX x i Hx I) as [I1 I2]. fold v in I1, I2. change (v x) with X in I1.
    pose proof (asin_bound (v i)) as B. assert (S2 : sin (Ratan.asin (v i)) = v i) by (apply sin_asin; apply Rabs_def2' in I2; lra). pose proof (asin_near L value EX GR fuel Hf i y _ I2 H B S2) as N. fold v in N. set (t' := Ratan.asin (v i)) in *.
    assert (Hs' : sin t = / X) by (rewrite Hs; unfold Rdiv; ring). destruct (CORE i t t' (v y - t') I1 I2 Ht B Hs' S2 N) as [C1 C2]. pose proof (Rabs_triang (v y - t') (- (t - t'))) as T. rewrite Rabs_Ropp in T. replace (v y - t' + - (t - t')) with (v y - t) in T by ring. split; [lra|intros Q; specialize (C2 Q); lra].
  - rewrite (asec_is L fuel rnd E dbg cf d Hd) in H. destruct (inv L x) as [[i|]|k|] eqn:I; try discriminate. cbn [ModelDecimal.call] in H. apply fun_ok in H. destruct (reciprocal D L value EX x i Hx I) as [I1 I2]. fold v in I1, I2. change (v x) with X in I1.
    pose proof (acos_bound (v i)) as B. assert (S2 : cos (Ratan.acos (v i)) = v i) by (apply cos_acos; apply Rabs_def2' in I2; lra). pose proof (acos_near L value EX GR fuel Hf i y _ I2 H B S2) as N. fold v in N. set (t' := Ratan.acos (v i)) in *.
    assert (Hs' : sin (PI / 2 - t) = / X) by (rewrite sin_shift, Hs; unfold Rdiv; ring). destruct (CORE i (PI / 2 - t) (PI / 2 - t') (v y - t') I1 I2 ltac:(lra) ltac:(lra) Hs' ltac:(rewrite sin_shift; exact S2) N) as [C1 C2]. replace (PI / 2 - t - (PI / 2 - t')) with (- (t - t')) in * by ring. rewrite Rabs_Ropp in *.
    pose proof (Rabs_triang (v y - t') (- (t - t'))) as T. rewrite Rabs_Ropp in T. replace (v y - t' + - (t - t')) with (v y - t) in T by ring. split; [lra|intros Q; specialize (C2 Q); lra].
Qed.
Print Assumptions C77_arcsecant.

(** ** Inverse hyperbolic functions *)
Lemma ten13 : Q2R (inject_Z (10 ^ 13)) = 10 ^ 13. Proof. rewrite Q2R_int. change (10 ^ 13)%Z with (10 ^ Z.of_nat 13)%Z. rewrite <- pow_IZR. reflexivity. Qed.
Theorem C77_hyperbolic : forall D W (L : dlib D) value, exact_decimals L value -> good_roots L value ->
  forall fuel (rnd : W -> f64 * W) E dbg cf d, decimal_context L fuel rnd E dbg cf = Ok d -> (40 <= fuel)%nat ->
  forall x y w,
  (apply_function (to_ctx E d) (lit "asinh") [x] w = (Ok y, w) -> (-(9) <= value x <= inject_Z (10 ^ 13))%Q -> forall t, Rtrigo_def.sinh t = Q2R (value x) -> Rabs (Q2R (value y) - t) <= 2 / 10 ^ 16) /\
  (apply_function (to_ctx E d) (lit "acosh") [x] w = (Ok y, w) -> (1 <= value x <= inject_Z (10 ^ 13))%Q -> forall t, 0 <= t -> Rtrigo_def.cosh t = Q2R (value x) ->
    Rabs (Q2R (value y) - t) <= 5 / 10 ^ 14 /\ (1 + / 10 ^ 10 <= Q2R (value x) -> Rabs (Q2R (value y) - t) <= 2 / 10 ^ 16)).
Proof.
  intros D W L value EX GR fuel rnd E dbg cf d Hd Hf x y w. unfold Rdiv. split; intros H [X1 X2]; apply Qle_Rle in X1, X2; rewrite ten13 in X2.
  - intros t Ht. rewrite (asinh_is L fuel rnd E dbg cf d Hd) in H. apply fun_ok in H. apply (asinh_near L value EX fuel Hf GR x y t); [|exact H|exact Ht]. split; [|exact X2]. change (Q2R (value x)) with (ProofDecReal.v value x) in X1. replace (Q2R (- (9))) with (-9) in X1 by (unfold Q2R; cbn; lra). lra.
  - intros t T0 Ht. rewrite (acosh_is L fuel rnd E dbg cf d Hd) in H. apply fun_ok in H. rewrite Q2R_1 in X1. exact (acosh_near L value EX fuel Hf GR x y t (conj X1 X2) H T0 Ht).
Qed.
Print Assumptions C77_hyperbolic.
Theorem C77_atanh : forall D W (L : dlib D) value, exact_decimals L value -> forall fuel (rnd : W -> f64 * W) E dbg cf d, decimal_context L fuel rnd E dbg cf = Ok d -> (40 <= fuel)%nat ->
  forall x w t, (-(9 # 10) <= value x)%Q -> (value x < 1)%Q -> Rtrigo_def.tanh t = Q2R (value x) ->
  exists y, apply_function (to_ctx E d) (lit "atanh") [x] w = (Ok y, w) /\ Rabs (Q2R (value y) - t) <= 1 / 10 ^ 16.
Proof.
  intros D W L value EX fuel rnd E dbg cf d Hd Hf x w t X1 X2 Ht. apply Qle_Rle in X1. apply Qlt_Rlt in X2. rewrite Q2R_1 in X2. rewrite (atanh_is L fuel rnd E dbg cf d Hd). change (Q2R (value x)) with (ProofDecReal.v value x) in *.
  destruct (atanh_near L value EX fuel Hf x t) as (y & Y1 & Y2); [split; [replace (Q2R (- (9 # 10))) with (-0.9) in X1 by (unfold Q2R; cbn; lra); lra|exact X2]|exact Ht|]. rewrite Y1. exists y. split; [reflexivity|]. change (Q2R (value y)) with (ProofDecReal.v value y). lra.
Qed.
Print Assumptions C77_atanh.

(** The inverse hyperbolic secant and cotangent fail on all of their domains: the code computes [1 / acosh x] and [1 / atanh x],
    not the numbers whose secant or cotangent is [x]. The cosecant is [1 / asinh x]. *)
Lemma asinh_one t : Rtrigo_def.sinh t = 1 -> / 2 <= t <= 0.89.
Proof.
  intros H. assert (HL : t = ln (1 + sqrt 2)) by (rewrite (asinh_log t), H; replace (1 * 1 + 1) with 2 by ring; reflexivity). assert (S2 : 1.414 <= sqrt 2 <= 1.41422). { split; apply Rsqr_incr_0; unfold Rsqr; try rewrite sqrt_sqrt by lra; try lra; apply sqrt_pos. }
  rewrite HL. split.
  - pose proof (ln_up 1 (1 + sqrt 2) ltac:(lra) ltac:(lra)) as U. rewrite ln_1 in U. assert ((1 - (1 + sqrt 2)) / (1 + sqrt 2) <= - / 2); [|lra]. apply Rmult_le_reg_r with (1 + sqrt 2); [lra|]. unfold Rdiv. rewrite Rmult_assoc, Rinv_l, Rmult_1_r by lra. lra.
  - set (c := 1.0139). assert (C0 : c = 1.0139) by reflexivity. clearbody c. set (c2 := c * c). set (c4 := c2 * c2). set (c8 := c4 * c4). set (c16 := c8 * c8). set (c32 := c16 * c16). set (c64 := c32 * c32).
    assert (A2 : 1.02799 <= c2) by (unfold c2; rewrite C0; lra). assert (A4 : 1.05676 <= c4) by (unfold c4; apply Rle_trans with (1.02799 * 1.02799); [lra|apply Rmult_le_compat; lra]). assert (A8 : 1.11674 <= c8) by (unfold c8; apply Rle_trans with (1.05676 * 1.05676); [lra|apply Rmult_le_compat; lra]).
    assert (A16 : 1.2471 <= c16) by (unfold c16; apply Rle_trans with (1.11674 * 1.11674); [lra|apply Rmult_le_compat; lra]). assert (A32 : 1.5552 <= c32) by (unfold c32; apply Rle_trans with (1.2471 * 1.2471); [lra|apply Rmult_le_compat; lra]). assert (A64 : 2.41422 <= c64) by (unfold c64; apply Rle_trans with (1.5552 * 1.5552); [lra|apply Rmult_le_compat; lra]).
    assert (LC : ln c64 = 64 * ln c) by (unfold c64; rewrite ln_mult by lra; unfold c32; rewrite ln_mult by lra; unfold c16; rewrite ln_mult by lra; unfold c8; rewrite ln_mult by lra; unfold c4; rewrite ln_mult by lra; unfold c2; rewrite ln_mult by lra; ring).
    pose proof (ln_up c 1 ltac:(lra) ltac:(lra)) as U. rewrite ln_1 in U. assert (ln (1 + sqrt 2) <= ln c64); [|lra]. destruct (Rle_lt_or_eq_dec (1 + sqrt 2) c64 ltac:(lra)) as [Q|Q]; [left; apply ln_increasing; lra|rewrite Q; lra].
Qed.
Lemma asinh_lower X t : / 10 <= X -> Rtrigo_def.sinh t = X -> 0.09 <= t.
Proof.
  intros H Ht. rewrite (asinh_log t), Ht. set (z := X + sqrt (X * X + 1)). assert (S1 : 1 <= sqrt (X * X + 1)). { rewrite <- sqrt_1 at 1. apply sqrt_le_1_alt. assert (0 <= X * X) by apply Rle_0_sqr. lra. }
  assert (Z : 1.1 <= z) by (unfold z; lra). pose proof (ln_up 1 1.1 ltac:(lra) ltac:(lra)) as U. rewrite ln_1 in U. assert (ln 1.1 <= ln z) by (destruct (Rle_lt_or_eq_dec _ _ Z) as [Q|<-]; [left; apply ln_increasing; lra|lra]). lra.
Qed.
Theorem C77_reciprocals_refuted : forall D W (L : dlib D) value, exact_decimals L value -> good_roots L value ->
  forall fuel (rnd : W -> f64 * W) E dbg cf d, decimal_context L fuel rnd E dbg cf = Ok d -> (40 <= fuel)%nat ->
  forall x w,
  ((0 < value x < 1)%Q -> apply_function (to_ctx E d) (lit "asech") [x] w = (Err Overflow, w)) /\
  ((1 < Qabs (value x))%Q -> apply_function (to_ctx E d) (lit "acoth") [x] w = (Err Overflow, w)) /\
  (forall y t, (1 # 10 <= value x <= inject_Z (10 ^ 13))%Q -> apply_function (to_ctx E d) (lit "acsch") [x] w = (Ok y, w) -> Rtrigo_def.sinh t = Q2R (value x) -> Rabs (Q2R (value y) - 1 / t) <= 1 / 10 ^ 13) /\
  (forall y t, (value x == 1)%Q -> apply_function (to_ctx E d) (lit "acsch") [x] w = (Ok y, w) -> Rtrigo_def.sinh t = 1 / Q2R (value x) -> t + 0.2 <= Q2R (value y)).
Proof.
  intros D W L value EX GR fuel rnd E dbg cf d Hd Hf x w. set (v := ProofDecReal.v value).
  assert (CS : forall y t, (1 # 10 <= value x <= inject_Z (10 ^ 13))%Q -> apply_function (to_ctx E d) (lit "acsch") [x] w = (Ok y, w) -> Rtrigo_def.sinh t = Q2R (value x) -> Rabs (v y - 1 / t) <= 1 / 10 ^ 13).
  { intros y t [X1 X2] H Ht. apply Qle_Rle in X1, X2. rewrite ten13 in X2. change (Q2R (value x)) with (v x) in *. assert (X3 : / 10 <= v x) by (revert X1; unfold Q2R at 1; cbn [Qnum Qden]; lra). clear X1.
    rewrite (acsch_is L fuel rnd E dbg cf d Hd) in H. destruct (ModelDecimal.asinh L fuel x) as [[a|]|k|] eqn:A; try discriminate. cbn [ModelDecimal.call] in H. apply fun_ok in H. pose proof (asinh_near L value EX fuel Hf GR x a t) as N. fold v in N. specialize (N ltac:(lra) A Ht). pose proof (asinh_lower _ _ X3 Ht) as T0.
    pose proof (Rabs_def2' _ _ N) as N'. assert (A0 : 0.089 <= v a) by lra. assert (NZ : ~ (value a == 0)%Q) by (apply v_nz; fold v; lra). pose proof (v_one L value EX) as V1. fold v in V1.
    assert (Eq : Q2R (value (ONE L) / value a) = / v a). { rewrite Q2R_div by exact NZ. change (v (ONE L) / v a = / v a). rewrite V1. unfold Rdiv. ring. }
    assert (IB : 0 < / v a <= 12) by (split; [apply Rinv_0_lt_compat; lra|apply Rmult_le_reg_r with (v a); [lra|]; rewrite Rinv_l by lra; lra]). assert (IT : 0 < / t <= 12) by (split; [apply Rinv_0_lt_compat; lra|apply Rmult_le_reg_r with t; [lra|]; rewrite Rinv_l by lra; lra]).
    destruct (near26 value _ _ (ed_div _ _ EX (ONE L) a NZ)) as (i & I1 & I2); [rewrite Eq, Rabs_pos_eq; lra|]. unfold inv, d_div in H. rewrite I1 in H. cbn [must some] in H. injection H as <-. rewrite Eq in I2. fold v in I2.
    assert (DI : Rabs (/ v a - / t) <= 2 * / 10 ^ 16 * 144). { replace (/ v a - / t) with (- (v a - t) * (/ v a * / t)) by (field; lra). rewrite Rabs_mult, Rabs_Ropp. apply Rmult_le_compat; try apply Rabs_pos; [exact N|]. rewrite Rabs_pos_eq by (apply Rmult_le_pos; lra). apply Rle_trans with (12 * 12); [apply Rmult_le_compat; lra|lra]. }
    replace (v i - 1 / t) with ((v i - / v a) + (/ v a - / t)) by (unfold Rdiv; ring). eapply Rle_trans; [apply Rabs_triang|]. lra. }
  repeat match goal with |- _ /\ _ => split end.
  - intros [X1 X2]. rewrite (asech_is L fuel rnd E dbg cf d Hd). unfold ModelDecimal.acosh. assert (B : d_lt L x (ONE L) = true) by (apply (d_lt_iff L value EX); rewrite (one_val L value EX); exact X2). rewrite B. reflexivity.
  - intros X1. rewrite (acoth_is L fuel rnd E dbg cf d Hd). unfold ModelDecimal.atanh. assert (B : d_lt L x (ONE_MINUS L) || d_gt L x (ONE L) = true).
    { apply orb_true_iff. rewrite (d_lt_iff L value EX), (d_gt_iff L value EX), (one_val L value EX), (minus_val L value EX). destruct (Qlt_le_dec (value x) 0) as [G|G]; [left; rewrite Qabs_neg in X1 by (apply Qlt_le_weak, G); apply Qopp_lt_compat in X1; rewrite Qopp_involutive in X1; exact X1|right; rewrite Qabs_pos in X1 by exact G; exact X1]. }
    rewrite B. reflexivity.
  - exact CS.
  - intros y t X1 H Ht. assert (V1 : Q2R (value x) = 1) by (rewrite <- Q2R_1; apply Qeq_eqR, X1). rewrite V1 in Ht. assert (Ht' : Rtrigo_def.sinh t = 1) by (rewrite Ht; lra). pose proof (asinh_one t Ht') as T. change (Q2R (value y)) with (v y).
    assert (R : (1 # 10 <= value x <= inject_Z (10 ^ 13))%Q) by (rewrite X1; split; vm_compute; discriminate). specialize (CS y t R H ltac:(rewrite V1; exact Ht')). apply Rabs_def2' in CS. assert (1.12 <= 1 / t) by (unfold Rdiv; apply Rmult_le_reg_r with t; [lra|]; rewrite Rmult_assoc, Rinv_l by lra; lra). lra.
Qed.
Print Assumptions C77_reciprocals_refuted.

(** ** Cases: the reference decimals meet both specifications. *)
Example C77_case : exact_decimals ref_lib val /\ good_roots ref_lib val /\
  (exists q, ref_fun "sqrt" [num 2 0] = Ok q /\ (14142135623 # 10000000000 < q < 14142135624 # 10000000000)%Q) /\
  (exists q, ref_fun "to_radians" [num 30 0] = Ok q /\ (Qabs q <= 1)%Q) /\ (exists q, ref_fun "asin" [num 30 0] = Ok q /\ (551 # 1000 < q < 552 # 1000)%Q) /\ (exists q, ref_fun "acos" [num 30 0] = Ok q /\ (1019 # 1000 < q < 1020 # 1000)%Q) /\
  (exists q, ref_fun "acsc" [num 2 0] = Ok q /\ (5235987755 # 10000000000 < q < 5235987756 # 10000000000)%Q) /\ (exists q, ref_fun "asec" [num 2 0] = Ok q /\ (10471975511 # 10000000000 < q < 10471975512 # 10000000000)%Q) /\
  (exists q, ref_fun "asinh" [num 0 0] = Ok q /\ (q == 0)%Q) /\ (-(9 # 10) <= val (num 5 1) < 1)%Q /\
  ref_fun "asech" [num 5 1] = Err Overflow /\ ref_fun "acoth" [num 2 0] = Err Overflow.
Proof.
  split; [exact ref_exact|]. split; [exact ref_roots|]. repeat match goal with |- _ /\ _ => split | |- exists q, _ => eexists; split; [vm_compute; reflexivity|]; try split end; vm_compute; first [reflexivity|discriminate].
Qed.
(** [acosh 1] is 0 and [atanh 0] is 0; the values in between take the checker too long (each is a series of thousands of terms). *)
Example C77_case_hyperbolic : ref_fun "acosh" [num 1 0] = Ok 0%Q /\ ref_fun "atanh" [num 0 0] = Ok 0%Q /\ ref_fun "acosh" [num 5 1] = Err Overflow /\ ref_fun "atanh" [num 2 0] = Err Overflow.
Proof. vm_compute. repeat split; reflexivity. Qed.
