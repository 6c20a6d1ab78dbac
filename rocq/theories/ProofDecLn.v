(** * The decimal logarithm and the real one *)
From Coq Require Import List NArith ZArith QArith Qabs Qround Qreals Reals Bool Lia Lra String.
From Verif Require Import ModelBase ModelContext ModelText ModelDefault ModelFloat ModelNum ModelOps ModelDecimal
  SpecText SpecExpr SpecOps SpecDecimal ProofText ProofDefault ProofBuild ProofCtx ProofDecimal ProofDecimal2 ProofDecTrig ProofDecFun ProofDecFun2 ProofReals ProofLn ProofDecReal ProofDecReal2.
Import ListNotations.
Local Open Scope R_scope.

Lemma ln_up a b : 0 < a -> 0 < b -> ln a - ln b <= (a - b) / b.
Proof.
  intros Ha Hb. assert (P : 0 < a / b) by (apply Rdiv_lt_0_compat; assumption). replace (ln a - ln b) with (ln (a / b)) by (unfold Rdiv; rewrite ln_mult, ln_Rinv by (try apply Rinv_0_lt_compat; lra); ring).
  pose proof (exp_ineq1_le (ln (a / b))) as X. rewrite exp_ln in X by exact P. replace ((a - b) / b) with (a / b - 1) by (field; lra). lra.
Qed.
Lemma ln_lip a b m : 0 < m -> m <= a -> m <= b -> Rabs (ln a - ln b) <= Rabs (a - b) / m.
Proof.
  intros Hm Ha Hb. assert (G : forall a b, m <= a -> m <= b -> ln a - ln b <= Rabs (a - b) / m).
  { clear - Hm. intros a b Ha Hb. eapply Rle_trans; [apply ln_up; lra|]. unfold Rdiv. apply Rle_trans with (Rabs (a - b) * / b); [apply Rmult_le_compat_r; [left; apply Rinv_0_lt_compat; lra|apply Rle_abs]|].
    apply Rmult_le_compat_l; [apply Rabs_pos|apply Rinv_le_contravar; lra]. }
  pose proof (G a b Ha Hb) as A. pose proof (G b a Hb Ha) as B. rewrite (Rabs_minus_sym b a) in B. apply Rabs_le. lra.
Qed.

Section Real.
Context {D : Type}.
Variable L : dlib D.
Variable value : D -> Q.
Hypothesis EX : exact_decimals L value.
Variable fuel : nat.
Notation v := (ProofDecReal.v value).
Definition w : R := / 10 ^ 28.

(** ** Powers *)
Lemma mul_near r b R B ro de : Rabs R <= 1 -> Rabs B <= 1 -> Rabs (v r - R) <= ro -> Rabs (v b - B) <= de -> ro <= / 10 -> de <= / 10 ->
  exists y, d_mul L r b = Some y /\ Rabs (v y - R * B) <= ro + 1.1 * de + w.
Proof.
  intros HR HB Hr Hb R1 D1. assert (Rb : Rabs (v r) <= 1.1). { replace (v r) with ((v r - R) + R) by ring. eapply Rle_trans; [apply Rabs_triang|]. lra. }
  assert (Bb : Rabs (v b) <= 1.1). { replace (v b) with ((v b - B) + B) by ring. eapply Rle_trans; [apply Rabs_triang|]. lra. }
  destruct (near28 value _ _ (ed_mul _ _ EX r b)) as (y & Y1 & Y2); [rewrite Q2R_mult; change (Rabs (v r * v b) <= 3); rewrite Rabs_mult; apply Rle_trans with (1.1 * 1.1); [apply Rmult_le_compat; try apply Rabs_pos; assumption|lra]|].
  rewrite Q2R_mult in Y2. change (Rabs (v y - v r * v b) <= w) in Y2. exists y. split; [exact Y1|].
  replace (v y - R * B) with ((v y - v r * v b) + (v r * (v b - B) + B * (v r - R))) by ring. eapply Rle_trans; [apply Rabs_triang|]. pose proof (Rabs_triang (v r * (v b - B)) (B * (v r - R))) as T. rewrite !Rabs_mult in T.
  assert (Rabs (v r) * Rabs (v b - B) <= 1.1 * de) by (apply Rmult_le_compat; try apply Rabs_pos; assumption). assert (Rabs B * Rabs (v r - R) <= 1 * ro) by (apply Rmult_le_compat; try apply Rabs_pos; assumption). lra.
Qed.
Lemma unit_mul a b : Rabs a <= 1 -> Rabs b <= 1 -> Rabs (a * b) <= 1.
Proof. intros Ha Hb. rewrite Rabs_mult. replace 1 with (1 * 1) by ring. apply Rmult_le_compat; try apply Rabs_pos; assumption. Qed.
Lemma loop_near e : forall r b R B ro de, Rabs R <= 1 -> Rabs B <= 1 -> Rabs (v r - R) <= ro -> Rabs (v b - B) <= de -> 0 <= de -> 0 <= ro -> ro + 4 * (de + w) * 4 ^ Pos.size_nat e <= / 10 ->
  exists y, powi_loop L r b e = Ok (Some y) /\ Rabs (v y - R * B ^ Pos.to_nat e) <= ro + 4 * (de + w) * 4 ^ Pos.size_nat e.
Proof.
  assert (W : 0 < w) by (unfold w; lra).
  induction e as [e IH|e IH|]; intros r b R B ro de HR HB Hr Hb D0 R0 Hs; cbn [powi_loop Pos.size_nat pow] in *.
  - assert (P4 : 1 <= 4 ^ Pos.size_nat e) by (apply pow_R1_Rle; lra). set (p := 4 ^ Pos.size_nat e) in *. assert (DP : de <= de * p) by nra. assert (WP : w <= w * p) by nra.
    destruct (mul_near r b R B ro de) as (y & Y1 & Y2); try assumption; try lra. destruct (mul_near b b B B de de) as (q & Q1 & Q2); try assumption; try lra. rewrite Y1, Q1. cbn [ask].
    destruct (IH y q (R * B) (B * B) (ro + 2 * de + w) (3 * de + w)) as (z & Z1 & Z2); try (apply unit_mul; assumption); try lra; try nra. exists z. split; [exact Z1|].
    replace (R * B ^ Pos.to_nat e~1) with (R * B * (B * B) ^ Pos.to_nat e); [|rewrite Pos2Nat.inj_xI, <- tech_pow_Rmult, (pow_mult B 2); replace (B ^ 2) with (B * B) by ring; ring]. nra.
  - assert (P4 : 1 <= 4 ^ Pos.size_nat e) by (apply pow_R1_Rle; lra). set (p := 4 ^ Pos.size_nat e) in *. assert (DP : de <= de * p) by nra. assert (WP : w <= w * p) by nra.
    destruct (mul_near b b B B de de) as (q & Q1 & Q2); try assumption; try lra. rewrite Q1. cbn [ask].
    destruct (IH r q R (B * B) ro (3 * de + w)) as (z & Z1 & Z2); try (apply unit_mul; assumption); try assumption; try lra; try nra. exists z. split; [exact Z1|].
    replace (B ^ Pos.to_nat e~0) with ((B * B) ^ Pos.to_nat e); [|rewrite Pos2Nat.inj_xO, pow_mult; f_equal; ring]. nra.
  - destruct (mul_near r b R B ro de) as (y & Y1 & Y2); try assumption; try lra. destruct (mul_near b b B B de de) as (q & Q1 & Q2); try assumption; try lra. rewrite Y1, Q1. cbn [ask]. exists y. split; [reflexivity|].
    change (Pos.to_nat 1) with 1%nat. rewrite pow_1. lra.
Qed.
Lemma size10 p : (Z.pos p <= 1000)%Z -> (Pos.size_nat p <= 10)%nat.
Proof. intros H. apply (Pos.size_nat_monotone p 1023). lia. Qed.
Lemma powi_near x B n : Rabs B <= 1 -> Rabs (v x - B) <= w -> (1 <= n <= 1000)%nat -> exists y, checked_powi L x (Z.of_nat n) = Ok (Some y) /\ Rabs (v y - B ^ n) <= / 10 ^ 21.
Proof.
  intros HB Hx Hn. assert (W : 0 < w < / 10 ^ 27) by (unfold w; lra). unfold checked_powi. destruct (Z.of_nat n =? 0)%Z eqn:E0; [lia|]. destruct (Z.of_nat n =? 1)%Z eqn:E1.
  - exists x. split; [reflexivity|]. replace n with 1%nat by lia. rewrite pow_1. lra.
  - destruct (Z.of_nat n <? 0)%Z eqn:E2; [lia|]. set (e := Z.to_pos (Z.of_nat n)). assert (En : Pos.to_nat e = n) by (unfold e; lia). assert (Es : (Pos.size_nat e <= 10)%nat) by (apply size10; unfold e; lia).
    assert (P : 4 ^ Pos.size_nat e <= 4 ^ 10) by (apply Rle_pow; [lra|exact Es]). assert (P0 : 0 < 4 ^ Pos.size_nat e) by (apply pow_lt; lra).
    pose proof (v_one L value EX) as V1. assert (Bd : 4 * (w + w) * 4 ^ Pos.size_nat e <= / 10 ^ 21).
    { apply Rle_trans with (4 * (w + w) * 4 ^ 10); [apply Rmult_le_compat_l; lra|]. unfold w. lra. }
    destruct (loop_near e (ONE L) x 1 B 0 w) as (y & Y1 & Y2); try assumption; try lra.
    + rewrite Rabs_R1. lra. + rewrite V1, Rminus_diag_eq, Rabs_R0 by reflexivity. lra.
    + exists y. split; [exact Y1|]. rewrite Rmult_1_l, En in Y2. lra.
Qed.

(** ** The series *)
Lemma lsum_bound n t : 0 <= t <= 1 -> 0 <= lsum n t <= INR n.
Proof.
  intros H. induction n as [|n IH]; [cbn; lra|]. change (lsum (S n) t) with (lsum n t + t ^ S n / INR (S n)). assert (P : 0 <= t ^ S n <= 1) by (split; [apply pow_le; lra|rewrite <- (pow1 (S n)); apply pow_incr; exact H]).
  rewrite S_INR in *. pose proof (pos_INR n). assert (I : 0 < / (INR n + 1) <= 1) by (split; [apply Rinv_0_lt_compat; lra|rewrite <- Rinv_1; apply Rinv_le_contravar; lra]). unfold Rdiv. nra.
Qed.
Lemma ln_steps x turns : 0 < v x < 1 -> forall m result d, (m + turns <= 999)%nat -> Rabs (v result - - lsum m (1 - v x)) <= d -> 0 <= d -> d + INR turns * (4 * / 10 ^ 21) <= 1 ->
  exists y, ln_series L turns (Z.of_nat (S m)) x result = Ok (Some y) /\ Rabs (v y - - lsum (m + turns) (1 - v x)) <= d + INR turns * (4 * / 10 ^ 21).
Proof.
  intros Hx. set (t := 1 - v x). assert (Ht : 0 < t < 1) by (unfold t; lra). assert (W : 0 < w < / 10 ^ 27) by (unfold w; lra). pose proof (v_one L value EX) as V1.
  induction turns as [|k IH]; intros m result d Hm Hr D0 Hd; cbn [ln_series].
  - exists result. split; [reflexivity|]. rewrite Nat.add_0_r. cbn [INR]. lra.
  - assert (Vm : v (ONE_MINUS L) = -1) by (apply (v_int L value EX); reflexivity).
    destruct (powi_near (ONE_MINUS L) (-1) (S (S m))) as (sg & S1 & S2); [rewrite Rabs_left; lra|rewrite Vm, Rminus_diag_eq, Rabs_R0 by reflexivity; lra|lia|].
    replace (Z.of_nat (S m) + 1)%Z with (Z.of_nat (S (S m))) by lia. rewrite S1. cbn [ModelDecimal.call].
    destruct (near28 value _ _ (ed_sub _ _ EX x (ONE L))) as (b & B1 & B2); [rewrite Q2R_minus; change (Rabs (v x - v (ONE L)) <= 3); rewrite V1; apply Rabs_le; lra|].
    rewrite Q2R_minus in B2. change (Rabs (v b - (v x - v (ONE L))) <= w) in B2. rewrite V1 in B2. unfold d_sub. rewrite B1. cbn [ask].
    destruct (powi_near b (v x - 1) (S m)) as (xn & X1 & X2); [apply Rabs_le; lra|exact B2|lia|]. rewrite X1. cbn [ModelDecimal.call].
    replace (v x - 1) with (- t) in X2 by (unfold t; ring). assert (N1 : 1 <= INR (S m)) by (rewrite S_INR; pose proof (pos_INR m); lra).
    assert (I : 0 < / INR (S m) <= 1) by (split; [apply Rinv_0_lt_compat; lra|rewrite <- Rinv_1; apply Rinv_le_contravar; lra]).
    assert (Vn : v (int L (Z.of_nat (S m))) = INR (S m)) by (rewrite (v_int L value EX), <- INR_IZR_INZ by (rewrite limit_val; lia); reflexivity).
    assert (NZ : ~ (value (int L (Z.of_nat (S m))) == 0)%Q) by (apply v_nz; rewrite Vn; lra).
    assert (Eq : Q2R (value xn / value (int L (Z.of_nat (S m)))) = v xn / INR (S m)). { rewrite Q2R_div by exact NZ. change (v xn / v (int L (Z.of_nat (S m))) = v xn / INR (S m)). rewrite Vn. reflexivity. }
    assert (Pt : Rabs ((- t) ^ S m) <= 1). { rewrite <- RPow_abs, Rabs_Ropp, Rabs_pos_eq by lra. rewrite <- (pow1 (S m)). apply pow_incr. lra. }
    assert (Xb : Rabs (v xn) <= 1.1). { replace (v xn) with ((v xn - (- t) ^ S m) + (- t) ^ S m) by ring. eapply Rle_trans; [apply Rabs_triang|]. lra. }
    destruct (near28 value _ _ (ed_div _ _ EX xn (int L (Z.of_nat (S m))) NZ)) as (q & Q1 & Q2).
    { rewrite Eq. unfold Rdiv. rewrite Rabs_mult, (Rabs_pos_eq (/ INR (S m))) by lra. pose proof (Rabs_pos (v xn)). nra. }
    rewrite Eq in Q2. fold w in Q2. unfold d_div. rewrite Q1. cbn [ask].
    assert (Qd : Rabs (v q - (- t) ^ S m / INR (S m)) <= 1.1 * / 10 ^ 21).
    { replace (v q - (- t) ^ S m / INR (S m)) with ((v q - v xn / INR (S m)) + (v xn - (- t) ^ S m) * / INR (S m)) by (field; lra). eapply Rle_trans; [apply Rabs_triang|]. rewrite (Rabs_mult _ (/ INR (S m))), (Rabs_pos_eq (/ INR (S m))) by lra.
      pose proof (Rabs_pos (v xn - (- t) ^ S m)). assert (Rabs (v xn - (- t) ^ S m) * / INR (S m) <= / 10 ^ 21 * 1) by (apply Rmult_le_compat; lra). lra. }
    destruct (mul_near q sg ((- t) ^ S m / INR (S m)) ((-1) ^ S (S m)) (1.1 * / 10 ^ 21) (/ 10 ^ 21)) as (y & Y1 & Y2); try assumption; try lra.
    { unfold Rdiv. apply unit_mul; [exact Pt|rewrite Rabs_pos_eq; lra]. } { rewrite pow_1_abs. lra. }
    rewrite Y1. cbn [ask]. assert (Sg : (- t) ^ S m / INR (S m) * (-1) ^ S (S m) = - (t ^ S m / INR (S m))).
    { replace (- t) with (-1 * t) by ring. rewrite Rpow_mult_distr. change ((-1) ^ S (S m)) with (-1 * (-1) ^ S m). assert (Q : (-1) ^ S m * (-1) ^ S m = 1) by (rewrite <- Rpow_mult_distr; replace (-1 * -1) with 1 by ring; apply pow1).
      transitivity (- (t ^ S m / INR (S m)) * ((-1) ^ S m * (-1) ^ S m)); [field; lra|]. rewrite Q. ring. }
    rewrite Sg in Y2. pose proof (lsum_bound (S m) t ltac:(lra)) as Lb. change (lsum (S m) t) with (lsum m t + t ^ S m / INR (S m)) in Lb. rewrite (S_INR k) in Hd |- *. pose proof (pos_INR k) as K0.
    assert (M0 : INR (S m) <= 1000) by (rewrite INR_IZR_INZ; apply IZR_le; lia).
    assert (Rd : Rabs (v result + v y - - lsum (S m) t) <= d + 3 * / 10 ^ 21).
    { change (lsum (S m) t) with (lsum m t + t ^ S m / INR (S m)). replace (v result + v y - - (lsum m t + t ^ S m / INR (S m))) with ((v result - - lsum m t) + (v y - - (t ^ S m / INR (S m)))) by ring. eapply Rle_trans; [apply Rabs_triang|]. lra. }
    destruct (near24 value _ _ (ed_add _ _ EX result y)) as (r' & R1 & R2).
    { rewrite Q2R_plus. change (Rabs (v result + v y) <= 39000). replace (v result + v y) with ((v result + v y - - lsum (S m) t) + - lsum (S m) t) by ring. eapply Rle_trans; [apply Rabs_triang|].
      rewrite Rabs_Ropp, (Rabs_pos_eq (lsum (S m) t)) by (change (lsum (S m) t) with (lsum m t + t ^ S m / INR (S m)); lra). change (lsum (S m) t) with (lsum m t + t ^ S m / INR (S m)) at 2. lra. }
    rewrite Q2R_plus in R2. change (Rabs (v r' - (v result + v y)) <= / 10 ^ 24) in R2. unfold d_add. rewrite R1. cbn [ask].
    destruct (IH (S m) r' (d + 4 * / 10 ^ 21)) as (z & Z1 & Z2); try lia; try lra.
    { replace (v r' - - lsum (S m) t) with ((v r' - (v result + v y)) + (v result + v y - - lsum (S m) t)) by ring. eapply Rle_trans; [apply Rabs_triang|]. lra. }
    exists z. split; [exact Z1|]. replace (m + S k)%nat with (S m + k)%nat by lia. lra.
Qed.
Lemma ln_small x dep : 0 < v x < 1 -> exists y, ln_rec L fuel dep x = Ok (Some y) /\ good (v y) (- lsum 999 (1 - v x)).
Proof.
  intros Hx. pose proof (v_one L value EX) as V1. pose proof (v_zero L value EX) as V0.
  assert (G0 : d_gt L x (ZERO L) = true) by (apply (d_gt_iff L value EX), Rlt_Qlt; change (v (ZERO L) < v x); lra).
  assert (I1 : is_one L x = false). { apply not_true_iff_false. rewrite (is_one_iff L value EX). intros E. apply Qeq_eqR in E. rewrite Q2R_1 in E. change (v x = 1) in E. lra. }
  assert (L1 : d_lt L x (ONE L) = true) by (apply (v_lt L value EX); lra).
  assert (R : ln_rec L fuel dep x = ModelDecimal.call (ln_series L 999 1 x (ZERO L)) (approx L)) by (destruct dep; cbn [ln_rec]; rewrite G0, I1, L1; reflexivity).
  rewrite R. destruct (ln_steps x 999 Hx 0 (ZERO L) 0) as (y & Y1 & Y2); [lia|cbn [lsum]; rewrite V0, Ropp_0, Rminus_0_r, Rabs_R0; lra|lra|rewrite INR_IZR_INZ; change (IZR (Z.of_nat 999)) with 999; lra|].
  change (Z.of_nat 1) with 1%Z in Y1. rewrite Y1. cbn [ModelDecimal.call]. apply (good_approx L value EX). change (0 + 999)%nat with 999%nat in Y2. rewrite INR_IZR_INZ in Y2. change (IZR (Z.of_nat 999)) with 999 in Y2. lra.
Qed.
Lemma ln_below x dep : / 20 <= v x < 1 -> exists y, ln_rec L fuel dep x = Ok (Some y) /\ Rabs (v y - ln (v x)) <= 1.2 * / 10 ^ 16.
Proof.
  intros Hx. assert (T0 : 0 <= 1 - v x < 1) by lra. assert (T1 : 0 <= 1 - v x <= 19 / 20) by lra.
  destruct (ln_small x dep ltac:(lra)) as (y & Y1 & Y2 & _). pose proof (pow95 (1 - v x) T1) as P. exists y. split; [exact Y1|]. destruct (ln_rest 999 (1 - v x) T0) as [A B]. replace (1 - (1 - v x)) with (v x) in A, B by ring.
  replace (1 - (1 - v x)) with (v x) in P by ring. change (S 999) with 1000%nat in B. set (s := lsum 999 (1 - v x)) in *. set (p := (1 - v x) ^ 1000 / v x) in *. clearbody s p.
  replace (v y - ln (v x)) with ((v y - - s) + (- s - ln (v x))) by ring. eapply Rle_trans; [apply Rabs_triang|]. assert (Rabs (- s - ln (v x)) <= / 10 ^ 20) by (apply Rabs_le; lra). lra.
Qed.

(** ** Tens *)
Lemma tenth_near a : 1 < v a -> exists b, d_div L a (TEN L) = Some b /\ / 20 <= v b /\ Rabs (ln (v b) + ln 10 - ln (v a)) <= / 10 ^ 26 /\ v b <= v a / 10 + 1 /\ (v a <= 3 -> v b <= 1).
Proof.
  intros Ha. assert (A0 : (0 < value a)%Q) by (apply Rlt_Qlt; rewrite Q2R_0; change (0 < v a); lra). destruct (tenth L value EX a A0) as (b & B1 & B2 & B3). exists b. split; [exact B1|].
  assert (VT : v (TEN L) = 10) by (apply (v_int L value EX); reflexivity). assert (NZ : ~ (value (TEN L) == 0)%Q) by (apply v_nz; rewrite VT; lra).
  assert (Eq : Q2R (value a / value (TEN L)) = v a / 10). { rewrite Q2R_div by exact NZ. change (v a / v (TEN L) = v a / 10). rewrite VT. reflexivity. }
  pose proof (rep_bound _ (ed_representable _ _ EX a)) as Ab. apply Qle_Rle in Ab. rewrite Q2R_abs, Q2R_int in Ab. change (Rabs (v a) <= IZR (limit - 1)) in Ab. rewrite Rabs_pos_eq in Ab by lra.
  assert (Lim : IZR (limit - 1) <= 10 ^ 29). { rewrite pow_IZR. apply IZR_le. vm_compute. discriminate. }
  destruct (near_rel value _ _ (ed_div _ _ EX a (TEN L) NZ)) as (b' & B1' & Bn). { rewrite Eq, Rabs_pos_eq by lra. lra. }
  unfold d_div in B1. rewrite B1 in B1'. injection B1' as <-. rewrite Eq in Bn. rewrite (Rabs_pos_eq (v a / 10)) in Bn by lra.
  assert (Bn' : Rabs (v b - v a / 10) <= v a / 10 * (/ 10 ^ 26 * / 3)) by lra. pose proof (Rabs_def2' _ _ Bn') as [N1 N2].
  assert (Low : v a / 20 <= v b) by lra. split; [lra|]. split; [|split].
  - replace (ln (v b) + ln 10 - ln (v a)) with (ln (v b) - ln (v a / 10)) by (unfold Rdiv; rewrite ln_mult, ln_Rinv by lra; ring).
    eapply Rle_trans; [apply (ln_lip _ _ (v a / 20)); lra|]. apply Rmult_le_reg_r with (v a / 20); [lra|]. unfold Rdiv at 1. rewrite Rmult_assoc, Rinv_l, Rmult_1_r by lra. eapply Rle_trans; [exact Bn'|]. lra.
  - apply Qle_Rle in B2. rewrite Q2R_plus, Q2R_mult in B2. change (v b <= v a * Q2R (1 # 10) + Q2R 1) in B2. replace (Q2R (1 # 10)) with (/ 10) in B2 by (unfold Q2R; cbn; lra). rewrite Q2R_1 in B2. lra.
  - intros H3. assert (H3' : (value a <= 3)%Q). { apply Rle_Qle. change (v a <= Q2R 3). eapply Rle_trans; [exact H3|]. unfold Q2R; cbn; lra. } apply B3, Qle_Rle in H3'. rewrite Q2R_1 in H3'. exact H3'.
Qed.
Lemma tens k : forall f a n, (k + 2 <= f)%nat -> / 20 <= v a -> v a <= 0.8 * 10 ^ k + 2 ->
  exists b m, ln_reduce L f a n = Ok (Some (b, m)) /\ / 20 <= v b <= 1 /\ (n <= m <= n + Z.of_nat k + 1)%Z /\ Rabs (ln (v b) + IZR (m - n) * ln 10 - ln (v a)) <= IZR (m - n) * / 10 ^ 26 /\ (1 < v a -> (n < m)%Z).
Proof.
  pose proof (v_one L value EX) as V1.
  assert (Stop : forall f a n, v a <= 1 -> ln_reduce L f a n = Ok (Some (a, n))).
  { intros f a n Ha. assert (G : d_gt L a (ONE L) = false) by (apply (d_gt_false L value EX), Rle_Qle; change (v a <= v (ONE L)); lra). destruct f; cbn [ln_reduce]; rewrite G; reflexivity. }
  induction k as [|k IH]; intros f a n Hf Hl Ha.
  - destruct (Rle_lt_dec (v a) 1) as [H1|H1].
    + exists a, n. rewrite (Stop f a n H1). split; [reflexivity|]. split; [lra|]. split; [lia|]. rewrite Z.sub_diag. split; [|lra]. replace (ln (v a) + 0 * ln 10 - ln (v a)) with 0 by ring. rewrite Rabs_R0. lra.
    + destruct f as [|f]; [lia|]. cbn [ln_reduce]. assert (G : d_gt L a (ONE L) = true) by (apply (d_gt_iff L value EX), Rlt_Qlt; change (v (ONE L) < v a); lra). rewrite G.
      destruct (tenth_near a H1) as (b & -> & B1 & B2 & B3 & B4). cbn [pow] in Ha. specialize (B4 ltac:(lra)). rewrite (Stop f b (n + 1)%Z B4). exists b, (n + 1)%Z. split; [reflexivity|]. split; [lra|]. split; [lia|].
      replace (n + 1 - n)%Z with 1%Z by lia. split; [|lia]. rewrite !Rmult_1_l. exact B2.
  - destruct (Rle_lt_dec (v a) 1) as [H1|H1].
    + exists a, n. rewrite (Stop f a n H1). split; [reflexivity|]. split; [lra|]. split; [lia|]. rewrite Z.sub_diag. split; [|lra]. replace (ln (v a) + 0 * ln 10 - ln (v a)) with 0 by ring. rewrite Rabs_R0. lra.
    + destruct f as [|f]; [lia|]. cbn [ln_reduce]. assert (G : d_gt L a (ONE L) = true) by (apply (d_gt_iff L value EX), Rlt_Qlt; change (v (ONE L) < v a); lra). rewrite G.
      destruct (tenth_near a H1) as (b & -> & B1 & B2 & B3 & B4). cbn [pow] in Ha. destruct (IH f b (n + 1)%Z ltac:(lia) B1 ltac:(lra)) as (c & m & -> & C1 & C2 & C3 & _).
      exists c, m. split; [reflexivity|]. split; [exact C1|]. split; [lia|]. split; [|lia]. replace (m - n)%Z with ((m - (n + 1)) + 1)%Z by lia. rewrite plus_IZR. set (j := IZR (m - (n + 1))) in *.
      replace (ln (v c) + (j + 1) * ln 10 - ln (v a)) with ((ln (v c) + j * ln 10 - ln (v b)) + (ln (v b) + ln 10 - ln (v a))) by ring. eapply Rle_trans; [apply Rabs_triang|]. lra.
Qed.
Lemma ln10_b : Rabs (ln 10 - IZR 23025850929940456840179914546 / 10 ^ 28) <= 2 * / 10 ^ 28.
Proof. replace (IZR 23025850929940456840179914546 / 10 ^ 28) with (Q2R LN10_hat); [exact LN10_enclosed|]. unfold LN10_hat, Q2R. cbn [Qnum Qden]. lra. Qed.
Lemma ln_near x : (40 <= fuel)%nat -> / 20 <= v x -> exists y, checked_ln L fuel x = Ok (Some y) /\ Rabs (v y - ln (v x)) <= 1.3 * / 10 ^ 16.
Proof.
  intros Hf Hx. unfold checked_ln. enough (G : forall d, (1 <= d)%nat -> exists y, ln_rec L fuel d x = Ok (Some y) /\ Rabs (v y - ln (v x)) <= 1.3 * / 10 ^ 16) by (apply G; lia).
  intros dd Hd. pose proof (v_one L value EX) as V1. pose proof (v_zero L value EX) as V0.
  destruct (Rlt_le_dec (v x) 1) as [H1|H1].
  { destruct (ln_below x dd ltac:(lra)) as (y & -> & Y). exists y. split; [reflexivity|]. lra. }
  assert (G0 : d_gt L x (ZERO L) = true) by (apply (d_gt_iff L value EX), Rlt_Qlt; change (v (ZERO L) < v x); lra).
  destruct dd as [|dep]; [lia|]. cbn [ln_rec]. rewrite G0. cbn [negb]. destruct (is_one L x) eqn:I1.
  { exists (ZERO L). split; [reflexivity|]. rewrite (is_one_iff L value EX) in I1. apply Qeq_eqR in I1. rewrite Q2R_1 in I1. change (v x = 1) in I1. rewrite I1, V0, ln_1, Rminus_0_r, Rabs_R0. lra. }
  assert (X1 : v x <> 1). { intros E. apply not_true_iff_false in I1. apply I1. rewrite (is_one_iff L value EX). apply eqR_Qeq. rewrite Q2R_1. exact E. }
  assert (L1 : d_lt L x (ONE L) = false) by (apply (v_lt_f L value EX); lra). rewrite L1. cbn [negb].
  pose proof (rep_bound _ (ed_representable _ _ EX x)) as Xb. apply Qle_Rle in Xb. rewrite Q2R_abs, Q2R_int in Xb. change (Rabs (v x) <= IZR (limit - 1)) in Xb. rewrite Rabs_pos_eq in Xb by lra.
  assert (Lim : IZR (limit - 1) <= 0.8 * 10 ^ 29). { apply Rle_trans with (8 * 10 ^ 28); [|lra]. rewrite pow_IZR, <- mult_IZR. apply IZR_le. vm_compute. discriminate. }
  destruct (tens 29 fuel x 0 ltac:(lia) Hx ltac:(lra)) as (a & m & -> & A1 & A2 & A3 & _). rewrite Z.sub_0_r in A3.
  assert (M : 0 <= IZR m <= 30) by (split; apply IZR_le; lia).
  assert (La : exists l, ln_rec L fuel dep a = Ok (Some l) /\ Rabs (v l - ln (v a)) <= 1.2 * / 10 ^ 16).
  { destruct (Rlt_le_dec (v a) 1) as [Ha|Ha]; [apply ln_below; lra|]. assert (Ea : v a = 1) by lra. exists (ZERO L).
    assert (Ga : d_gt L a (ZERO L) = true) by (apply (d_gt_iff L value EX), Rlt_Qlt; change (v (ZERO L) < v a); lra).
    assert (Ia : is_one L a = true) by (rewrite (is_one_iff L value EX); apply eqR_Qeq; rewrite Q2R_1; exact Ea). split; [destruct dep; cbn [ln_rec]; rewrite Ga, Ia; reflexivity|]. rewrite Ea, V0, ln_1, Rminus_0_r, Rabs_R0. lra. }
  destruct La as (l & -> & Ll). cbn [ModelDecimal.call].
  assert (Vl : v (LN_10 L) = IZR 23025850929940456840179914546 / 10 ^ 28) by (apply (v_lit28 L value EX); reflexivity). pose proof (Rabs_def2' _ _ ln10_b) as P. rewrite <- Vl in P. assert (Vlb : 2.3 < v (LN_10 L) < 2.31) by (rewrite Vl; lra). clear Vl.
  assert (Vm : v (int L m) = IZR m) by (apply (v_int L value EX); rewrite limit_val; lia).
  destruct (near26 value _ _ (ed_mul _ _ EX (LN_10 L) (int L m))) as (b & B1 & B2). { rewrite Q2R_mult. change (Rabs (v (LN_10 L) * v (int L m)) <= 390). rewrite Vm, Rabs_pos_eq by (apply Rmult_le_pos; lra). nra. }
  rewrite Q2R_mult in B2. change (Rabs (v b - v (LN_10 L) * v (int L m)) <= / 10 ^ 26) in B2. rewrite Vm in B2. unfold d_mul. rewrite B1. cbn [ask].
  assert (Bd : Rabs (v b - IZR m * ln 10) <= 2 * / 10 ^ 26).
  { replace (v b - IZR m * ln 10) with ((v b - v (LN_10 L) * IZR m) + - (IZR m * (ln 10 - v (LN_10 L)))) by ring. eapply Rle_trans; [apply Rabs_triang|]. rewrite Rabs_Ropp, Rabs_mult, (Rabs_pos_eq (IZR m)) by lra.
    assert (Rabs (ln 10 - v (LN_10 L)) <= 2 * / 10 ^ 28) by (apply Rabs_le; lra). assert (IZR m * Rabs (ln 10 - v (LN_10 L)) <= 30 * (2 * / 10 ^ 28)) by (apply Rmult_le_compat; try apply Rabs_pos; lra). lra. }
  assert (La : - 4 <= ln (v a) <= 0).
  { split.
    - apply Rle_trans with (ln (/ 20)); [|destruct A1 as [[A1|A1] _]; [left; apply ln_increasing; lra|rewrite A1; lra]]. rewrite ln_Rinv by lra.
      replace 20 with (2 * 10) by lra. rewrite ln_mult by lra. pose proof (ln_up 2 1 ltac:(lra) ltac:(lra)) as X2. rewrite ln_1 in X2. lra.
    - apply Rle_trans with (ln 1); [|rewrite ln_1; lra]. destruct A1 as [A0 [A1|A1]]; [left; apply ln_increasing; lra|rewrite A1; lra]. }
  destruct (near26 value _ _ (ed_add _ _ EX l b)) as (r & R1 & R2).
  { rewrite Q2R_plus. change (Rabs (v l + v b) <= 390). apply Rabs_def2' in Ll. apply Rabs_def2' in Bd. apply Rabs_le. assert (0 <= IZR m * ln 10 <= 30 * 2.4) by nra. lra. }
  rewrite Q2R_plus in R2. change (Rabs (v r - (v l + v b)) <= / 10 ^ 26) in R2. unfold d_add. rewrite R1. cbn [ask]. exists r. split; [reflexivity|].
  replace (v r - ln (v x)) with ((v r - (v l + v b)) + ((v l - ln (v a)) + ((v b - IZR m * ln 10) + (ln (v a) + IZR m * ln 10 - ln (v x))))) by ring.
  eapply Rle_trans; [apply Rabs_triang|]. pose proof (Rabs_triang (v l - ln (v a)) ((v b - IZR m * ln 10) + (ln (v a) + IZR m * ln 10 - ln (v x)))). pose proof (Rabs_triang (v b - IZR m * ln 10) (ln (v a) + IZR m * ln 10 - ln (v x))).
  assert (IZR m * / 10 ^ 26 <= 30 * / 10 ^ 26) by (apply Rmult_le_compat_r; lra). lra.
Qed.

(** ** Powers of ten *)
Lemma ten_power k : (k <= 28)%nat -> (Z.abs (10 ^ Z.of_nat k) < limit)%Z.
Proof. intros H. assert (P : (10 ^ Z.of_nat k <= 10 ^ 28)%Z) by (apply Z.pow_le_mono_r; lia). assert (0 < 10 ^ Z.of_nat k)%Z by (apply Z.pow_pos_nonneg; lia). rewrite Z.abs_eq by lia. eapply Z.le_lt_trans; [exact P|]. reflexivity. Qed.
Lemma tens_exact k : forall f a n, (k <= 28)%nat -> (k <= f)%nat -> (value a == inject_Z (10 ^ Z.of_nat k))%Q -> exists b, ln_reduce L f a n = Ok (Some (b, (n + Z.of_nat k)%Z)) /\ (value b == 1)%Q.
Proof.
  pose proof (one_val L value EX) as V1. pose proof (ten_val L value EX) as V10. induction k as [|k IH]; intros f a n Hk Hf Ha.
  - exists a. rewrite Z.add_0_r. split; [|exact Ha]. assert (G : d_gt L a (ONE L) = false) by (apply (d_gt_false L value EX); rewrite V1, Ha; discriminate). destruct f; cbn [ln_reduce]; rewrite G; reflexivity.
  - destruct f as [|f]; [lia|]. cbn [ln_reduce]. assert (P : (10 ^ Z.of_nat (S k) = 10 * 10 ^ Z.of_nat k)%Z) by (rewrite Nat2Z.inj_succ, Z.pow_succ_r; lia).
    assert (P0 : (0 < 10 ^ Z.of_nat k)%Z) by (apply Z.pow_pos_nonneg; lia).
    assert (G : d_gt L a (ONE L) = true). { apply (d_gt_iff L value EX). rewrite V1, Ha. change 1%Q with (inject_Z 1). rewrite <- Zlt_Qlt. lia. } rewrite G.
    assert (N10 : ~ (value (TEN L) == 0)%Q) by (rewrite V10; discriminate).
    assert (Eq : (inject_Z (10 ^ Z.of_nat k) == value a / value (TEN L))%Q). { rewrite Ha, V10, P, inject_Z_mult. change (inject_Z 10) with 10%Q. field. }
    destruct (computes_exact value _ _ (ed_div _ _ EX a (TEN L) N10)) as (b & B1 & B2); [apply (rep_comp _ _ Eq), int_rep, ten_power; lia|].
    unfold d_div. rewrite B1. destruct (IH f b (n + 1)%Z ltac:(lia) ltac:(lia)) as (c & C1 & C2); [rewrite B2, <- Eq; reflexivity|].
    exists c. replace (n + Z.of_nat (S k))%Z with (n + 1 + Z.of_nat k)%Z by lia. split; [exact C1|exact C2].
Qed.
Definition ln10_28 : Z := 23025850929940456840179914546.
Lemma ln_power x k : (40 <= fuel)%nat -> (k <= 28)%nat -> (value x == inject_Z (10 ^ Z.of_nat k))%Q ->
  exists y, checked_ln L fuel x = Ok (Some y) /\ Rabs (v y - INR k * v (LN_10 L)) <= 2 * / 10 ^ 26 /\ ((k <= 3)%nat -> (value y == inject_Z (Z.of_nat k) * value (LN_10 L))%Q).
Proof.
  intros Hf Hk Hx. pose proof (zero_val L value EX) as V0. pose proof (one_val L value EX) as V1. unfold checked_ln.
  assert (P0 : (0 < 10 ^ Z.of_nat k)%Z) by (apply Z.pow_pos_nonneg; lia).
  assert (G : d_gt L x (ZERO L) = true). { apply (d_gt_iff L value EX). rewrite V0, Hx. change 0%Q with (inject_Z 0). rewrite <- Zlt_Qlt. lia. }
  destruct (is_one L x) eqn:I1.
  { exists (ZERO L). split; [destruct fuel; cbn [ln_rec]; rewrite G, I1; reflexivity|]. apply (is_one_iff L value EX) in I1. rewrite Hx in I1. change 1%Q with (inject_Z 1) in I1. rewrite inject_Z_injective in I1.
    destruct k as [|k]; [|rewrite Nat2Z.inj_succ, Z.pow_succ_r in I1 by lia; lia]. rewrite (v_zero L value EX), Rmult_0_l, Rminus_0_r, Rabs_R0. split; [lra|]. intros _. rewrite V0. change (inject_Z (Z.of_nat 0)) with 0%Q. ring. }
  assert (G2 : d_lt L x (ONE L) = false). { apply (d_lt_false L value EX). rewrite V1, Hx. change 1%Q with (inject_Z 1). rewrite <- Zle_Qle. lia. }
  destruct (tens_exact k fuel x 0 Hk ltac:(lia) Hx) as (a & Red & A). rewrite Z.add_0_l in Red.
  assert (La : forall d, ln_rec L fuel d a = Ok (Some (ZERO L))).
  { assert (G5 : d_gt L a (ZERO L) = true) by (apply (d_gt_iff L value EX); rewrite V0, A; reflexivity). apply (is_one_iff L value EX) in A. intros d. destruct d; cbn [ln_rec]; rewrite G5, A; reflexivity. }
  assert (Vl : v (LN_10 L) = IZR 23025850929940456840179914546 / 10 ^ 28) by (apply (v_lit28 L value EX); reflexivity). assert (Vlb : 2.3 < v (LN_10 L) < 2.31) by (rewrite Vl; lra). clear Vl.
  assert (Vm : v (int L (Z.of_nat k)) = INR k) by (rewrite (v_int L value EX), <- INR_IZR_INZ by (rewrite limit_val; lia); reflexivity).
  assert (Qm : (value (int L (Z.of_nat k)) == inject_Z (Z.of_nat k))%Q) by (apply (lit_val L value EX); rewrite limit_val; lia).
  assert (K : 0 <= INR k <= 28). { split; [apply pos_INR|]. rewrite INR_IZR_INZ. apply IZR_le. lia. }
  destruct (near26 value _ _ (ed_mul _ _ EX (LN_10 L) (int L (Z.of_nat k)))) as (b & B1 & B2). { rewrite Q2R_mult. change (Rabs (v (LN_10 L) * v (int L (Z.of_nat k))) <= 390). rewrite Vm, Rabs_pos_eq by (apply Rmult_le_pos; lra). nra. }
  rewrite Q2R_mult in B2. change (Rabs (v b - v (LN_10 L) * v (int L (Z.of_nat k))) <= / 10 ^ 26) in B2. rewrite Vm in B2.
  destruct (computes_exact value _ _ (ed_add _ _ EX (ZERO L) b)) as (r & R1 & R2); [apply (rep_comp (value b)); [rewrite V0; ring|apply (ed_representable _ _ EX)]|].
  assert (Rb : (value r == value b)%Q) by (rewrite R2, V0; ring). exists r. split.
  - assert (Q1 : forall d, (1 <= d)%nat -> ln_rec L fuel d x = Ok (Some r)); [|apply Q1; lia]. intros [|d] Hd; [lia|]. cbn [ln_rec]. rewrite G, I1, G2. cbn [negb].
    rewrite Red, La. cbn [ModelDecimal.call]. unfold d_mul, d_add. rewrite B1. cbn [ask]. rewrite R1. reflexivity.
  - rewrite (proj2 (v_eq value r b) Rb). split; [rewrite (Rmult_comm (INR k)); lra|]. intros H3. rewrite Rb.
    destruct (computes_exact value _ _ (ed_mul _ _ EX (LN_10 L) (int L (Z.of_nat k)))) as (b' & B1' & B2'); [|rewrite B1 in B1'; injection B1' as <-; rewrite B2', Qm; ring].
    assert (VL : (value (LN_10 L) == 23025850929940456840179914546 # 10000000000000000000000000000)%Q) by (apply (lit28 L value EX); reflexivity).
    exists (ln10_28 * Z.of_nat k)%Z, 28%Z. assert (K3 : (k = 0 \/ k = 1 \/ k = 2 \/ k = 3)%nat) by lia. split; [lia|]. split.
    + destruct K3 as [->|[->|[->| ->]]]; reflexivity.
    + rewrite VL, Qm. destruct K3 as [->|[->|[->| ->]]]; reflexivity.
Qed.

(** ** Quotients *)
Lemma log_ten x a : checked_ln L fuel x = Ok (Some a) -> Rabs (v a) <= 100 -> exists y, checked_log L fuel x (TEN L) = Ok (Some y) /\ Rabs (v y - v a / v (LN_10 L)) <= / 10 ^ 26.
Proof.
  intros Ha Hb. unfold checked_log. rewrite Ha. cbn [ModelDecimal.call]. assert (T : d_eq L (TEN L) (TEN L) = true) by (apply (d_eq_iff L value EX); reflexivity). rewrite T.
  assert (Vl : v (LN_10 L) = IZR 23025850929940456840179914546 / 10 ^ 28) by (apply (v_lit28 L value EX); reflexivity). assert (Vlb : 2.3 < v (LN_10 L) < 2.31) by (rewrite Vl; lra). clear Vl.
  assert (NZ : ~ (value (LN_10 L) == 0)%Q) by (apply v_nz; lra).
  assert (Eq : Q2R (value a / value (LN_10 L)) = v a / v (LN_10 L)) by (rewrite Q2R_div by exact NZ; reflexivity).
  destruct (near26 value _ _ (ed_div _ _ EX a (LN_10 L) NZ)) as (y & Y1 & Y2).
  { rewrite Eq. unfold Rdiv. rewrite Rabs_mult. assert (I : / v (LN_10 L) <= / 2.3) by (apply Rinv_le_contravar; lra). assert (I0 : 0 < / v (LN_10 L)) by (apply Rinv_0_lt_compat; lra). rewrite (Rabs_pos_eq (/ v (LN_10 L))) by lra. pose proof (Rabs_pos (v a)). nra. }
  rewrite Eq in Y2. unfold d_div. rewrite Y1. exists y. split; [reflexivity|exact Y2].
Qed.
Lemma lsum_harmonic n t : (1 <= n)%nat -> 0 <= t <= 1 -> lsum n t <= 1 + ln (INR n).
Proof.
  intros Hn Ht. assert (G : forall m, (1 <= m)%nat -> lsum m 1 <= 1 + ln (INR m)).
  { induction m as [|m IH]; [lia|]. intros _. destruct m as [|m]; [cbn [lsum pow INR]; rewrite ln_1; lra|]. change (lsum (S (S m)) 1) with (lsum (S m) 1 + 1 ^ S (S m) / INR (S (S m))). rewrite pow1. specialize (IH ltac:(lia)).
    assert (P : 0 < INR (S m)) by (apply lt_0_INR; lia). pose proof (ln_up (INR (S m)) (INR (S (S m))) P ltac:(apply lt_0_INR; lia)) as U. rewrite (S_INR (S m)) in U |- *. set (k := INR (S m)) in *. replace ((k - (k + 1)) / (k + 1)) with (- (1 / (k + 1))) in U by (field; lra). lra. }
  eapply Rle_trans; [|exact (G n Hn)]. clear - Ht. induction n as [|n IH]; [cbn [lsum]; lra|]. change (lsum n t + t ^ S n / INR (S n) <= lsum n 1 + 1 ^ S n / INR (S n)). apply Rplus_le_compat; [exact IH|].
  apply Rmult_le_compat_r; [left; apply Rinv_0_lt_compat, lt_0_INR; lia|]. apply pow_incr. lra.
Qed.
Lemma ln_bound x : / 20 <= v x -> Rabs (ln (v x)) <= 70.
Proof.
  intros Hx. pose proof (Rabs_def2' _ _ ln10_b) as P. assert (P' : 2.3 < ln 10 < 2.31) by lra. clear P.
  pose proof (rep_bound _ (ed_representable _ _ EX x)) as Xb. apply Qle_Rle in Xb. rewrite Q2R_abs, Q2R_int in Xb. change (Rabs (v x) <= IZR (limit - 1)) in Xb. rewrite Rabs_pos_eq in Xb by lra.
  assert (Lim : IZR (limit - 1) <= 10 ^ 29). { rewrite pow_IZR. apply IZR_le. vm_compute. discriminate. }
  apply Rabs_le. split.
  - apply Rle_trans with (ln (/ 20)); [|destruct Hx as [Hx|Hx]; [left; apply ln_increasing; lra|rewrite Hx; lra]]. rewrite ln_Rinv by lra.
    replace 20 with (2 * 10) by lra. rewrite ln_mult by lra. pose proof (ln_up 2 1 ltac:(lra) ltac:(lra)) as X2. rewrite ln_1 in X2. lra.
  - apply Rle_trans with (ln (10 ^ 29)); [assert (X : v x <= 10 ^ 29) by lra; destruct X as [X|X]; [left; apply ln_increasing; lra|rewrite X; lra]|].
    assert (E : forall n, ln (10 ^ n) = INR n * ln 10). { induction n as [|n IH]; [cbn; rewrite ln_1; ring|]. cbn [pow]. rewrite ln_mult, IH, S_INR by (try apply pow_lt; lra). ring. }
    rewrite E, INR_IZR_INZ. change (IZR (Z.of_nat 29)) with 29. lra.
Qed.
End Real.
