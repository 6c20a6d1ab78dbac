(** * The decimal inverse functions: arcsine, arccosine and the inverse hyperbolic functions *)
From Coq Require Import List NArith ZArith QArith Qabs Qround Qreals Reals Bool Lia Lra String.
From Verif Require Import ModelBase ModelFloat ModelNum ModelOps ModelDecimal SpecDecimal SpecRoots ProofDecRef ProofDecimal ProofDecimal2 ProofDecTrig ProofDecFun ProofDecFun2 ProofReals ProofAtan ProofDecReal ProofDecReal2 ProofDecLn ProofDecAtan ProofDecCbrt ProofDecRoot.
Local Open Scope R_scope.

(** ** Real numbers *)
Lemma atan_rel u q : 0 <= u -> 0 <= q -> Rabs (Ratan.atan q - Ratan.atan u) <= Rabs (q - u) / (1 + u * q).
Proof.
  assert (G : forall u q, 0 <= u -> u <= q -> Rabs (Ratan.atan q - Ratan.atan u) <= Rabs (q - u) / (1 + u * q)).
  { clear. intros u q Hu Hq. assert (P : 0 < 1 + u * q) by nra. pose proof (atan_bound u) as Bu. pose proof (atan_bound q) as Bq.
    assert (Au : 0 <= Ratan.atan u). { destruct Hu as [Hu|<-]; [left; apply atan_pos, Hu|rewrite atan_0; lra]. }
    assert (Aq : Ratan.atan u <= Ratan.atan q). { destruct Hq as [Hq| ->]; [left; apply atan_increasing, Hq|lra]. }
    set (z := Ratan.atan q - Ratan.atan u). assert (Z : Ratan.atan ((q - u) / (1 + u * q)) = z).
    { assert (C1 : cos (Ratan.atan u) <> 0) by (assert (0 < cos (Ratan.atan u)) by (apply cos_gt_0; lra); lra). assert (C2 : cos (Ratan.atan q) <> 0) by (assert (0 < cos (Ratan.atan q)) by (apply cos_gt_0; lra); lra).
      assert (C3 : cos z <> 0) by (assert (0 < cos z) by (apply cos_gt_0; unfold z; lra); lra).
      rewrite <- (atan_tan z) by (unfold z; lra). f_equal. unfold z. rewrite tan_minus by (rewrite ?tan_atan; try assumption; lra). rewrite !tan_atan. unfold Rdiv. f_equal. f_equal. ring. }
    rewrite <- Z. pose proof (atan_lip ((q - u) / (1 + u * q)) 0) as A. rewrite atan_0, !Rminus_0_r in A. eapply Rle_trans; [exact A|]. unfold Rdiv. rewrite Rabs_mult, (Rabs_pos_eq (/ (1 + u * q))) by (left; apply Rinv_0_lt_compat, P). lra. }
  intros Hu Hq. destruct (Rle_dec u q) as [H|H]; [apply G; assumption|]. rewrite Rabs_minus_sym, (Rabs_minus_sym q u), (Rmult_comm u q). apply G; lra.
Qed.
Lemma half_angle t : - PI < t < PI -> t = 2 * Ratan.atan (sin t / (1 + cos t)).
Proof.
  intros H. set (h := t / 2). assert (C : 0 < cos h) by (apply cos_gt_0; unfold h; lra). replace t with (2 * h) by (unfold h; field). rewrite sin_2a, cos_2a. pose proof (sin2_cos2 h) as S. unfold Rsqr in S.
  replace (2 * sin h * cos h / (1 + (cos h * cos h - sin h * sin h))) with (tan h). { rewrite atan_tan by (unfold h; lra). ring. }
  unfold tan. replace (1 + (cos h * cos h - sin h * sin h)) with (2 * (cos h * cos h)) by lra. field. lra.
Qed.
Lemma asin_half t : - (PI / 2) <= t <= PI / 2 -> t = 2 * Ratan.atan (sin t / (1 + sqrt (1 - sin t * sin t))).
Proof.
  intros H. pose proof PI_RGT_0. rewrite (half_angle t) at 1 by lra. do 4 f_equal. rewrite <- (sqrt_square (cos t)) at 1 by (apply cos_ge_0; lra). f_equal. pose proof (sin2_cos2 t) as S. unfold Rsqr in S. lra.
Qed.
Lemma acos_half t : 0 <= t < PI -> t = 2 * Ratan.atan (sqrt (1 - cos t * cos t) / (1 + cos t)).
Proof.
  intros H. pose proof PI_RGT_0. rewrite (half_angle t) at 1 by lra. do 3 f_equal. rewrite <- (sqrt_square (sin t)) at 1 by (apply sin_ge_0; lra). f_equal. pose proof (sin2_cos2 t) as S. unfold Rsqr in S. lra.
Qed.
Lemma sqrt_diff a b : 0 <= a -> 0 < b -> Rabs (sqrt a - sqrt b) <= Rabs (a - b) / sqrt b.
Proof.
  intros Ha Hb. pose proof (sqrt_pos a) as A. assert (B : 0 < sqrt b) by (apply sqrt_lt_R0, Hb). replace (a - b) with ((sqrt a - sqrt b) * (sqrt a + sqrt b)).
  2:{ replace ((sqrt a - sqrt b) * (sqrt a + sqrt b)) with (sqrt a * sqrt a - sqrt b * sqrt b) by ring. rewrite !sqrt_sqrt by lra. reflexivity. }
  rewrite Rabs_mult, (Rabs_pos_eq (sqrt a + sqrt b)) by lra. apply Rmult_le_reg_r with (sqrt b); [exact B|]. unfold Rdiv. rewrite (Rmult_assoc _ (/ sqrt b)), Rinv_l, Rmult_1_r by lra. apply Rmult_le_compat_l; [apply Rabs_pos|lra].
Qed.
Lemma sqrt_gap a b : 0 <= a -> 0 <= b -> Rabs (sqrt a - sqrt b) <= sqrt (Rabs (a - b)).
Proof.
  intros Ha Hb. pose proof (sqrt_pos a) as A. pose proof (sqrt_pos b) as B. apply Rsqr_incr_0; [|apply Rabs_pos|apply sqrt_pos]. unfold Rsqr. rewrite sqrt_sqrt by apply Rabs_pos. rewrite <- Rabs_mult.
  replace (a - b) with ((sqrt a - sqrt b) * (sqrt a + sqrt b)). 2:{ replace ((sqrt a - sqrt b) * (sqrt a + sqrt b)) with (sqrt a * sqrt a - sqrt b * sqrt b) by ring. rewrite !sqrt_sqrt by lra. reflexivity. }
  rewrite !Rabs_mult. apply Rmult_le_compat_l; [apply Rabs_pos|]. rewrite (Rabs_pos_eq (sqrt a + sqrt b)) by lra. apply Rabs_le. lra.
Qed.
(** Two angles whose sines are close *)
Lemma sin_half_bound h : 0 <= h <= PI / 2 -> h / 2 <= sin h.
Proof.
  intros H. assert (P : 3.14 <= PI <= 3.1416). { pose proof pi_b as Q. apply Rabs_def2' in Q. lra. } destruct (Rle_dec h (PI / 3)) as [B|B].
  - assert (C : / 2 <= cos h). { replace (/ 2) with (cos (PI / 3)) by (rewrite cos_PI3; lra). destruct (Rle_lt_or_eq_dec h (PI / 3) B) as [B1| ->]; [left; apply cos_decreasing_1; lra|lra]. }
    assert (T : h <= tan h). { rewrite <- (atan_tan h) at 1 by lra. pose proof (atan_lip (tan h) 0) as A. rewrite atan_0, !Rminus_0_r in A.
      assert (T0 : 0 <= tan h). { unfold tan. apply Rmult_le_pos; [apply sin_ge_0; lra|left; apply Rinv_0_lt_compat; lra]. } rewrite (Rabs_pos_eq (tan h)) in A by exact T0. apply Rabs_def2' in A. lra. }
    assert (S : sin h = tan h * cos h) by (unfold tan; field; lra). rewrite S. assert (h * / 2 <= tan h * cos h) by (apply Rmult_le_compat; lra). lra.
  - assert (S : sin (PI / 3) <= sin h) by (left; apply sin_increasing_1; lra). rewrite sin_PI3 in S. assert (1.6 <= sqrt 3) by (apply Rsqr_incr_0; [unfold Rsqr; rewrite sqrt_sqrt by lra; lra|lra|apply sqrt_pos]). lra.
Qed.
Lemma arc_lip t t' e : - (PI / 2) <= t <= PI / 2 -> - (PI / 2) <= t' <= PI / 2 -> Rabs (sin t - sin t') <= e ->
  Rabs (t - t') * Rabs (t - t') <= 8 * e /\ (forall m, 0 < m -> m <= cos t -> Rabs (t - t') * m <= 4 * e).
Proof.
  assert (G : forall t t', - (PI / 2) <= t <= PI / 2 -> - (PI / 2) <= t' <= PI / 2 -> t' <= t -> Rabs (sin t - sin t') <= e ->
    Rabs (t - t') * Rabs (t - t') <= 8 * e /\ (forall m, 0 < m -> m <= cos t \/ m <= cos t' -> Rabs (t - t') * m <= 4 * e)).
  { clear. intros t t' H H' T E. set (m := (t + t') / 2). set (h := (t - t') / 2). assert (Et : t = m + h) by (unfold m, h; field). assert (Et' : t' = m - h) by (unfold m, h; field).
    assert (S : sin t - sin t' = 2 * (cos m * sin h)) by (rewrite Et, Et', sin_plus, sin_minus; ring). pose proof (sin_half_bound h ltac:(unfold h; lra)) as Sh. assert (H0 : 0 <= h) by (unfold h; lra).
    assert (Cm : sin h <= cos m). { rewrite <- (cos_shift h). destruct (Rle_dec 0 m) as [M|M].
      - destruct (Rle_lt_or_eq_dec m (PI / 2 - h)) as [L|L]; [lra|left; apply cos_decreasing_1; lra|rewrite L; lra].
      - rewrite <- (cos_neg m). destruct (Rle_lt_or_eq_dec (- m) (PI / 2 - h)) as [L|L]; [lra|left; apply cos_decreasing_1; lra|rewrite L; lra]. }
    assert (P : 0 <= cos m * sin h) by (apply Rmult_le_pos; lra). rewrite S, Rabs_pos_eq in E by lra. rewrite (Rabs_pos_eq (t - t')) by lra. replace (t - t') with (2 * h) by (unfold h; field). split.
    - assert (h / 2 * (h / 2) <= cos m * sin h) by (apply Rmult_le_compat; lra). lra.
    - intros k Hk Ck. assert (Km : k / 2 <= cos m).
      { assert (X : cos t + cos t' = 2 * (cos m * cos h)) by (rewrite Et, Et', cos_plus, cos_minus; ring). assert (0 <= cos t) by (apply cos_ge_0; lra). assert (0 <= cos t') by (apply cos_ge_0; lra). pose proof (COS_bound h).
        assert (cos m * cos h <= cos m * 1) by (apply Rmult_le_compat_l; lra). destruct Ck; lra. }
      assert (k / 2 * (h / 2) <= cos m * sin h) by (apply Rmult_le_compat; lra). lra. }
  intros H H' E. destruct (Rle_dec t' t) as [T|T].
  - destruct (G t t' H H' T E) as [A B]. split; [exact A|]. intros m M0 M1. apply B; [exact M0|left; exact M1].
  - rewrite Rabs_minus_sym in E. destruct (G t' t H' H ltac:(lra) E) as [A B]. rewrite (Rabs_minus_sym t). split; [exact A|]. intros m M0 M1. apply B; [exact M0|right; exact M1].
Qed.

(** ** Decimals *)
Section Real.
Context {D : Type}.
Variable L : dlib D.
Variable value : D -> Q.
Hypothesis EX : exact_decimals L value.
Notation v := (ProofDecReal.v value).

(** Adding an integer to a decimal, or a decimal to it, is exact if the result is small, or if it is nearer to zero. *)
Lemma rep_shift (q : Q) (k m : Z) : representable q -> (m = 1 \/ m = -1)%Z -> (Qabs (inject_Z k + inject_Z m * q) <= 7)%Q \/ (Qabs (inject_Z k + inject_Z m * q) <= Qabs q)%Q -> representable (inject_Z k + inject_Z m * q).
Proof.
  intros (c & s & Hs & Hc & E) Hm H. exists (k * 10 ^ s + m * c)%Z, s. split; [exact Hs|]. assert (P : (0 < 10 ^ s <= 10 ^ 28)%Z) by (split; [apply Z.pow_pos_nonneg; lia|apply Z.pow_le_mono_r; lia]).
  assert (Q1 : ((inject_Z k + inject_Z m * q) * inject_Z (10 ^ s) == inject_Z (k * 10 ^ s + m * c))%Q) by (rewrite inject_Z_plus, !inject_Z_mult, <- E; ring). split; [|exact Q1].
  assert (A : (inject_Z (Z.abs (k * 10 ^ s + m * c)) == Qabs (inject_Z k + inject_Z m * q) * inject_Z (10 ^ s))%Q).
  { change (inject_Z (Z.abs (k * 10 ^ s + m * c))) with (Qabs (inject_Z (k * 10 ^ s + m * c))). rewrite <- Q1, Qabs_Qmult, (Qabs_pos (inject_Z (10 ^ s))); [reflexivity|]. change 0%Q with (inject_Z 0). rewrite <- Zle_Qle. lia. }
  assert (B : (inject_Z (Z.abs c) == Qabs q * inject_Z (10 ^ s))%Q).
  { change (inject_Z (Z.abs c)) with (Qabs (inject_Z c)). rewrite <- E, Qabs_Qmult, (Qabs_pos (inject_Z (10 ^ s))); [reflexivity|]. change 0%Q with (inject_Z 0). rewrite <- Zle_Qle. lia. }
  assert (S0 : (0 <= inject_Z (10 ^ s))%Q) by (change 0%Q with (inject_Z 0); rewrite <- Zle_Qle; lia). destruct H as [H|H].
  - assert (X : (inject_Z (Z.abs (k * 10 ^ s + m * c)) <= inject_Z (7 * 10 ^ 28))%Q).
    { rewrite A, inject_Z_mult. apply Qle_trans with (inject_Z 7 * inject_Z (10 ^ s))%Q; [apply Qmult_le_compat_r; assumption|]. rewrite <- !inject_Z_mult, <- Zle_Qle. lia. } rewrite <- Zle_Qle in X. eapply Z.le_lt_trans; [exact X|]. reflexivity.
  - assert (X : (inject_Z (Z.abs (k * 10 ^ s + m * c)) <= inject_Z (Z.abs c))%Q) by (rewrite A, B; apply Qmult_le_compat_r; assumption). rewrite <- Zle_Qle in X. lia.
Qed.
Lemma one_minus x : Rabs (1 - v x) <= 7 -> exists z, d_sub L (ONE L) x = Some z /\ v z = 1 - v x.
Proof.
  intros H. pose proof (one_val L value EX) as V1. destruct (computes_exact value _ _ (ed_sub _ _ EX (ONE L) x)) as (z & Z1 & Z2).
  - apply (rep_comp (inject_Z 1 + inject_Z (-1) * value x)); [rewrite V1; unfold inject_Z; ring|]. apply rep_shift; [apply (ed_representable _ _ EX)|auto|]. left. apply Rle_Qle. rewrite Q2R_abs, Q2R_plus, Q2R_mult, !Q2R_int. change (Q2R (value x)) with (v x). change (Q2R 7) with (Q2R (inject_Z 7)). rewrite Q2R_int.
    replace (1 + -1 * v x) with (1 - v x) by ring. exact H.
  - exists z. split; [exact Z1|]. apply Qeq_eqR in Z2. rewrite Q2R_minus in Z2. change (v z = v (ONE L) - v x) in Z2. rewrite (v_one L value EX) in Z2. exact Z2.
Qed.
Lemma one_plus x : Rabs (1 + v x) <= 7 -> exists z, d_add L (ONE L) x = Some z /\ v z = 1 + v x.
Proof.
  intros H. pose proof (one_val L value EX) as V1. destruct (computes_exact value _ _ (ed_add _ _ EX (ONE L) x)) as (z & Z1 & Z2).
  - apply (rep_comp (inject_Z 1 + inject_Z 1 * value x)); [rewrite V1; unfold inject_Z; ring|]. apply rep_shift; [apply (ed_representable _ _ EX)|auto|]. left. apply Rle_Qle. rewrite Q2R_abs, Q2R_plus, Q2R_mult, !Q2R_int. change (Q2R (value x)) with (v x). change (Q2R 7) with (Q2R (inject_Z 7)). rewrite Q2R_int.
    replace (1 + 1 * v x) with (1 + v x) by ring. exact H.
  - exists z. split; [exact Z1|]. apply Qeq_eqR in Z2. rewrite Q2R_plus in Z2. change (v z = v (ONE L) + v x) in Z2. rewrite (v_one L value EX) in Z2. exact Z2.
Qed.
Lemma minus_one x : 1 <= v x -> exists z, d_sub L x (ONE L) = Some z /\ v z = v x - 1.
Proof.
  intros H. pose proof (one_val L value EX) as V1. destruct (computes_exact value _ _ (ed_sub _ _ EX x (ONE L))) as (z & Z1 & Z2).
  - apply (rep_comp (inject_Z (-1) + inject_Z 1 * value x)); [rewrite V1; unfold inject_Z; ring|]. apply rep_shift; [apply (ed_representable _ _ EX)|auto|]. right. apply Rle_Qle. rewrite !Q2R_abs, Q2R_plus, Q2R_mult, !Q2R_int. change (Q2R (value x)) with (v x).
    rewrite !Rabs_pos_eq by lra. lra.
  - exists z. split; [exact Z1|]. apply Qeq_eqR in Z2. rewrite Q2R_minus in Z2. change (v z = v x - v (ONE L)) in Z2. rewrite (v_one L value EX) in Z2. exact Z2.
Qed.
Lemma below_one x : v x < 1 -> v x <= 1 - e28.
Proof.
  intros H. destruct (Rle_dec (-6) (v x)) as [B|B]; [|assert (e28 = / 10 ^ 28) by reflexivity; lra]. destruct (one_minus x) as (z & _ & Z); [apply Rabs_le; lra|]. pose proof (least L value EX z ltac:(lra)) as M. assert (e28 = / 10 ^ 28) by reflexivity. lra.
Qed.
Lemma above_one x : 1 < v x -> 1 + e28 <= v x.
Proof. intros H. destruct (minus_one x) as (z & _ & Z); [lra|]. pose proof (least L value EX z ltac:(lra)) as M. assert (e28 = / 10 ^ 28) by reflexivity. lra. Qed.

Lemma one_square x : Rabs (v x) < 1 -> exists xx d, d_mul L x x = Some xx /\ d_sub L (ONE L) xx = Some d /\ Rabs (v d - (1 - v x * v x)) <= e28 /\ e28 <= v d /\ 1.9 * e28 <= 1 - v x * v x <= 1.
Proof.
  intros H. assert (WE : e28 = / 10 ^ 28) by reflexivity. assert (A : Rabs (v x) <= 1 - e28).
  { apply Rabs_def2 in H. apply Rabs_le. pose proof (below_one x ltac:(lra)). pose proof (below_one (d_neg L x) ltac:(rewrite (v_neg L value EX); lra)) as N. rewrite (v_neg L value EX) in N. lra. }
  assert (B : v x * v x <= (1 - e28) * (1 - e28)). { rewrite <- (Rabs_pos_eq (v x * v x)) by apply Rle_0_sqr. rewrite Rabs_mult. apply Rmult_le_compat; try apply Rabs_pos; exact A. } pose proof (Rle_0_sqr (v x)) as Sq. unfold Rsqr in Sq.
  assert (E2 : (1 - e28) * (1 - e28) <= 1 - 1.9 * e28) by (rewrite WE; lra).
  destruct (near28 value _ _ (ed_mul _ _ EX x x)) as (xx & X1 & X2); [rewrite Q2R_mult; change (Rabs (v x * v x) <= 3); rewrite Rabs_pos_eq; lra|]. rewrite Q2R_mult in X2. change (Rabs (v xx - v x * v x) <= / 10 ^ 28) in X2. rewrite <- WE in X2. apply Rabs_def2' in X2.
  destruct (one_minus xx) as (d & D1 & D2); [apply Rabs_le; lra|]. exists xx, d. split; [exact X1|]. split; [exact D1|]. rewrite D2. split; [apply Rabs_le; lra|]. split; [|lra]. rewrite <- D2. rewrite WE. apply (least L value EX). rewrite D2. lra.
Qed.

Hypothesis GR : good_roots L value.
Variable fuel : nat.
Hypothesis Hf : (1 <= fuel)%nat.

(** The square root of the computed difference, against the real one *)
Lemma root_square x d a : e28 <= v d -> v d <= 2 -> Rabs (v d - x) <= e28 -> 1.9 * e28 <= x <= 1 -> checked_sqrt L fuel d = Ok (Some a) ->
  Rabs (v a - sqrt x) <= 1.03 * / 10 ^ 14 /\ (/ 10 ^ 20 <= x -> Rabs (v a - sqrt x) <= 1.1 * / 10 ^ 18) /\ 0.6 * sqrt x <= v a /\ v a <= 2.
Proof.
  intros H0 H2 Hd Hx Ha. assert (WE : e28 = / 10 ^ 28) by reflexivity. destruct (sqrt_near L value EX GR fuel d a ltac:(lra) Ha) as (A1 & _ & A2).
  assert (SD : sqrt (v d) <= 1.5). { apply Rsqr_incr_0; [unfold Rsqr; rewrite sqrt_sqrt by lra; lra|apply sqrt_pos|lra]. } pose proof (sqrt_pos (v d)) as SP.
  assert (A3 : Rabs (v a - sqrt (v d)) <= 245 * e28) by (eapply Rle_trans; [exact A1|]; rewrite WE; lra). clear A1.
  assert (X : forall b, Rabs (sqrt (v d) - sqrt x) <= b -> Rabs (v a - sqrt x) <= 245 * e28 + b). { intros b B. replace (v a - sqrt x) with ((v a - sqrt (v d)) + (sqrt (v d) - sqrt x)) by ring. eapply Rle_trans; [apply Rabs_triang|]. lra. }
  split; [|split; [|split]].
  - eapply Rle_trans; [apply (X (/ 10 ^ 14))|rewrite WE; lra]. eapply Rle_trans; [apply sqrt_gap; lra|]. replace (/ 10 ^ 14) with (sqrt (/ 10 ^ 14 * / 10 ^ 14)) by (apply sqrt_square; lra). apply sqrt_le_1_alt. rewrite WE in Hd. lra.
  - intros Hx'. eapply Rle_trans; [apply (X (/ 10 ^ 18))|rewrite WE; lra]. eapply Rle_trans; [apply sqrt_diff; lra|]. assert (S1 : / 10 ^ 10 <= sqrt x) by (apply Rsqr_incr_0; [unfold Rsqr; rewrite sqrt_sqrt by lra; lra|lra|apply sqrt_pos]).
    assert (S2 : / sqrt x <= / / 10 ^ 10) by (apply Rinv_le_contravar; lra). assert (S3 : 0 < / sqrt x) by (apply Rinv_0_lt_compat; lra). assert (Rabs (v d - x) * / sqrt x <= e28 * / / 10 ^ 10) by (apply Rmult_le_compat; [apply Rabs_pos|lra|lra|lra]). unfold Rdiv. rewrite WE in *. lra.
  - apply Rabs_def2' in A3. assert (S1 : 0.65 * sqrt x <= sqrt (v d)). { apply Rsqr_incr_0; [|pose proof (sqrt_pos x); lra|exact SP]. unfold Rsqr. rewrite sqrt_sqrt by lra. replace (0.65 * sqrt x * (0.65 * sqrt x)) with (0.4225 * (sqrt x * sqrt x)) by lra. rewrite sqrt_sqrt by lra. apply Rabs_def2' in Hd. lra. }
    assert (S2 : 10 ^ 13 * e28 <= sqrt x). { apply Rsqr_incr_0; [unfold Rsqr; rewrite sqrt_sqrt by lra; rewrite WE in *; lra|rewrite WE; lra|apply sqrt_pos]. } rewrite WE in *. lra.
  - apply Rabs_def2' in A3. rewrite WE in A3. lra.
Qed.
Lemma asin_near x y t : Rabs (v x) <= 1 -> ModelDecimal.asin L fuel x = Ok (Some y) -> - (PI / 2) <= t <= PI / 2 -> sin t = v x ->
  Rabs (v y - t) <= 3 * / 10 ^ 14 /\ (Rabs (v x) <= 1 - / 10 ^ 20 -> Rabs (v y - t) <= 4 * / 10 ^ 16).
Proof.
  intros Hx Hy Ht Hs. assert (WE : e28 = / 10 ^ 28) by reflexivity. enough (G : Rabs (v y - t) <= 4 * / 10 ^ 16 \/ Rabs (v y - t) <= 3 * / 10 ^ 14 /\ ~ Rabs (v x) <= 1 - / 10 ^ 20) by (destruct G as [G|[G1 G2]]; [split; [lra|intros; exact G]|split; [exact G1|intros; contradiction]]).
  unfold ModelDecimal.asin in Hy. destruct (d_lt L x (ONE_MINUS L) || d_gt L x (ONE L)); [discriminate|]. pose proof (half_b L value EX) as HB. pose proof PI_RGT_0 as P0.
  destruct (is_zero L x) eqn:I0.
  { apply (is_zero_iff L value EX), Qeq_eqR in I0. rewrite Q2R_0 in I0. change (v x = 0) in I0. injection Hy as <-. left. rewrite (v_zero L value EX). rewrite (asin_half t Ht), Hs, I0. unfold Rdiv. rewrite Rmult_0_l, atan_0, Rmult_0_r, Rminus_0_r, Rabs_R0. lra. }
  destruct (is_one L x) eqn:I1.
  { apply (is_one_iff L value EX), Qeq_eqR in I1. rewrite Q2R_1 in I1. change (v x = 1) in I1. injection Hy as <-. left. assert (T : t = PI / 2). { rewrite (asin_half t Ht), Hs, I1. replace (1 - 1 * 1) with 0 by ring. rewrite sqrt_0. replace (1 / (1 + 0)) with 1 by field. rewrite atan_1. field. } rewrite T. lra. }
  destruct (d_eq L x (ONE_MINUS L)) eqn:I2.
  { apply (d_eq_iff L value EX), Qeq_eqR in I2. change (v x = v (ONE_MINUS L)) in I2. rewrite (v_minus L value EX) in I2. injection Hy as <-. left. rewrite (v_neg L value EX). assert (T : t = - (PI / 2)). { rewrite (asin_half t Ht), Hs, I2. replace (1 - -1 * -1) with 0 by ring. rewrite sqrt_0. replace (-1 / (1 + 0)) with (- (1)) by field. rewrite atan_opp, atan_1. field. }
    rewrite T. replace (- v (PI_FRACT_2 L) - - (PI / 2)) with (- (v (PI_FRACT_2 L) - PI / 2)) by ring. rewrite Rabs_Ropp. lra. }
  assert (N1 : v x <> 1). { intros N. assert (is_one L x = true); [|congruence]. apply (is_one_iff L value EX), eqR_Qeq. rewrite Q2R_1. exact N. }
  assert (N2 : v x <> -1). { intros N. assert (d_eq L x (ONE_MINUS L) = true); [|congruence]. apply (d_eq_iff L value EX), eqR_Qeq. change (v x = v (ONE_MINUS L)). rewrite (v_minus L value EX). exact N. }
  assert (Hx1 : Rabs (v x) < 1). { apply Rabs_def2' in Hx. apply Rabs_def1; lra. }
  destruct (one_square x Hx1) as (xx & d & X1 & X2 & X3 & X4 & X5). rewrite X1 in Hy. cbn [must] in Hy. rewrite X2 in Hy. cbn [must] in Hy. set (K := 1 - v x * v x) in *.
  destruct (checked_sqrt L fuel d) as [[a|]|k|] eqn:Q; try discriminate. cbn [ModelDecimal.call] in Hy. pose proof (Rabs_def2' _ _ X3) as X3'. destruct (root_square K d a X4 ltac:(rewrite WE in *; lra) X3 X5 Q) as (R1 & R2 & R3 & R4).
  assert (SK : 0 <= sqrt K <= 1). { split; [apply sqrt_pos|]. rewrite <- sqrt_1. apply sqrt_le_1_alt. lra. } pose proof (sqrt_pos K) as SP.
  destruct (near28 value _ _ (ed_add _ _ EX a (ONE L))) as (b & B1 & B2); [rewrite Q2R_plus; change (Rabs (v a + v (ONE L)) <= 3); rewrite (v_one L value EX); apply Rabs_le; lra|]. rewrite Q2R_plus in B2. change (Rabs (v b - (v a + v (ONE L))) <= / 10 ^ 28) in B2. rewrite (v_one L value EX), <- WE in B2.
  unfold d_add in Hy at 1. rewrite B1 in Hy. cbn [must] in Hy. pose proof (Rabs_def2' _ _ B2) as B3. assert (VB : 0.99 <= v b) by (rewrite WE in *; lra).
  assert (NB : ~ (value b == 0)%Q). { apply v_nz. lra. } assert (IB : 0 < / v b <= / 0.99) by (split; [apply Rinv_0_lt_compat; lra|apply Rinv_le_contravar; lra]).
  assert (QB : Rabs (v x / v b) <= 1.1). { unfold Rdiv. rewrite Rabs_mult, (Rabs_pos_eq (/ v b)) by lra. assert (Rabs (v x) * / v b <= 1 * / 0.99) by (apply Rmult_le_compat; try lra; apply Rabs_pos). lra. }
  destruct (near28 value _ _ (ed_div _ _ EX x b NB)) as (q & D1 & D2); [rewrite Q2R_div by exact NB; change (Rabs (v x / v b) <= 3); lra|]. rewrite Q2R_div in D2 by exact NB. change (Rabs (v q - v x / v b) <= / 10 ^ 28) in D2. rewrite <- WE in D2.
  unfold d_div in Hy at 1. rewrite D1 in Hy. cbn [must] in Hy. destruct (atan_near L value EX q fuel Hf) as (c & C1 & C2). unfold ModelDecimal.atan in Hy. rewrite C1 in Hy. cbn [ModelDecimal.call] in Hy.
  set (u := v x / (1 + sqrt K)) in *. assert (T : t = 2 * Ratan.atan u) by (rewrite (asin_half t Ht), Hs; reflexivity).
  assert (QU : Rabs (v q - u) <= 3 * e28 + 1.1 * Rabs (v a - sqrt K)).
  { replace (v q - u) with ((v q - v x / v b) + (v x / v b - u)) by ring. eapply Rle_trans; [apply Rabs_triang|]. enough (Rabs (v x / v b - u) <= 2 * e28 + 1.1 * Rabs (v a - sqrt K)) by lra.
    unfold u. replace (v x / v b - v x / (1 + sqrt K)) with (v x * / (1 + sqrt K) * (/ v b * ((1 + sqrt K) - v b))) by (field; lra). rewrite !Rabs_mult, (Rabs_pos_eq (/ (1 + sqrt K))), (Rabs_pos_eq (/ v b)) by (try lra; left; apply Rinv_0_lt_compat; lra).
    assert (U1 : Rabs (v x) * / (1 + sqrt K) <= 1 * 1). { apply Rmult_le_compat; try lra; [apply Rabs_pos|left; apply Rinv_0_lt_compat; lra|]. rewrite <- Rinv_1. apply Rinv_le_contravar; lra. }
    assert (U2 : Rabs (1 + sqrt K - v b) <= e28 + Rabs (v a - sqrt K)). { replace (1 + sqrt K - v b) with (- (v b - (v a + 1)) + - (v a - sqrt K)) by ring. eapply Rle_trans; [apply Rabs_triang|]. rewrite !Rabs_Ropp. lra. }
    assert (U3 : / v b * Rabs (1 + sqrt K - v b) <= 1.1 * (e28 + Rabs (v a - sqrt K))) by (apply Rmult_le_compat; try lra; apply Rabs_pos).
    assert (U4 : Rabs (v x) * / (1 + sqrt K) * (/ v b * Rabs (1 + sqrt K - v b)) <= 1 * 1 * (1.1 * (e28 + Rabs (v a - sqrt K)))). { apply Rmult_le_compat; try assumption; apply Rmult_le_pos; try apply Rabs_pos; try lra. left. apply Rinv_0_lt_compat. lra. } lra. }
  assert (CB : Rabs (v c) <= 1.2). { pose proof (atan_lip (v q) 0) as Z. rewrite atan_0, !Rminus_0_r in Z. assert (Rabs (v q) <= 1.11). { replace (v q) with ((v q - v x / v b) + v x / v b) by ring. eapply Rle_trans; [apply Rabs_triang|]. rewrite WE in D2. lra. }
    replace (v c) with ((v c - Ratan.atan (v q)) + Ratan.atan (v q)) by ring. eapply Rle_trans; [apply Rabs_triang|]. lra. }
  destruct (near28 value _ _ (ed_mul _ _ EX (TWO L) c)) as (r & M1 & M2); [rewrite Q2R_mult; change (Rabs (v (TWO L) * v c) <= 3); rewrite (v_two L value EX), Rabs_mult, (Rabs_pos_eq 2); lra|]. rewrite Q2R_mult in M2. change (Rabs (v r - v (TWO L) * v c) <= / 10 ^ 28) in M2. rewrite (v_two L value EX), <- WE in M2.
  unfold d_mul in Hy at 1. rewrite M1 in Hy. cbn [must] in Hy. destruct (approx_near L value EX r) as (y' & Y1 & Y2 & _). rewrite Y1 in Hy. injection Hy as <-.
  assert (F : Rabs (v y' - t) <= 3.41 * / 10 ^ 16 + 2.2 * Rabs (v a - sqrt K)).
  { rewrite T. replace (v y' - 2 * Ratan.atan u) with ((v y' - v r) + ((v r - 2 * v c) + 2 * ((v c - Ratan.atan (v q)) + (Ratan.atan (v q) - Ratan.atan u)))) by ring.
    pose proof (atan_lip (v q) u) as Lp. pose proof (Rabs_triang (v y' - v r) ((v r - 2 * v c) + 2 * ((v c - Ratan.atan (v q)) + (Ratan.atan (v q) - Ratan.atan u)))) as T1. pose proof (Rabs_triang (v r - 2 * v c) (2 * ((v c - Ratan.atan (v q)) + (Ratan.atan (v q) - Ratan.atan u)))) as T2.
    rewrite (Rabs_mult 2), (Rabs_pos_eq 2) in T2 by lra. pose proof (Rabs_triang (v c - Ratan.atan (v q)) (Ratan.atan (v q) - Ratan.atan u)) as T3. rewrite WE in *. lra. }
  destruct (Rle_dec (Rabs (v x)) (1 - / 10 ^ 20)) as [X|X].
  - left. assert (K1 : / 10 ^ 20 <= K). { unfold K. rewrite <- (Rabs_pos_eq (v x * v x)) by apply Rle_0_sqr. rewrite Rabs_mult. assert (Rabs (v x) * Rabs (v x) <= (1 - / 10 ^ 20) * 1) by (apply Rmult_le_compat; try apply Rabs_pos; lra). lra. } specialize (R2 K1). lra.
  - right. split; [lra|exact X].
Qed.
End Real.
