(** * The decimal arccosine and the inverse hyperbolic functions *)
From Coq Require Import List NArith ZArith QArith Qabs Qround Qreals Reals Bool Lia Lra String.
From Verif Require Import ModelBase ModelFloat ModelNum ModelOps ModelDecimal SpecDecimal SpecRoots ProofDecRef ProofDecimal ProofDecimal2 ProofDecTrig ProofDecFun ProofDecFun2 ProofReals ProofAtan ProofDecReal ProofDecReal2 ProofDecLn ProofDecAtan ProofDecCbrt ProofDecRoot ProofDecArc.
Local Open Scope R_scope.

Section Real.
Context {D : Type}.
Variable L : dlib D.
Variable value : D -> Q.
Hypothesis EX : exact_decimals L value.
Notation v := (ProofDecReal.v value).
Hypothesis GR : good_roots L value.
Variable fuel : nat.
Hypothesis Hf : (1 <= fuel)%nat.

Lemma acos_near x y t : Rabs (v x) <= 1 -> ModelDecimal.acos L fuel x = Ok (Some y) -> 0 <= t <= PI -> cos t = v x ->
  Rabs (v y - t) <= 3 * / 10 ^ 14 /\ (Rabs (v x) <= 1 - / 10 ^ 20 -> Rabs (v y - t) <= 4 * / 10 ^ 16).
Proof.
  intros Hx Hy Ht Hs. assert (WE : e28 = / 10 ^ 28) by reflexivity. enough (G : Rabs (v y - t) <= 4 * / 10 ^ 16 \/ Rabs (v y - t) <= 3 * / 10 ^ 14 /\ ~ Rabs (v x) <= 1 - / 10 ^ 20) by (destruct G as [G|[G1 G2]]; [split; [lra|intros; exact G]|split; [exact G1|intros; contradiction]]).
  unfold ModelDecimal.acos in Hy. destruct (d_lt L x (ONE_MINUS L) || d_gt L x (ONE L)); [discriminate|]. pose proof (half_b L value EX) as HB. pose proof PI_RGT_0 as P0.
  assert (IJ : forall a, 0 <= a <= PI -> cos t = cos a -> t = a). { intros a Ha C. apply (cos_inj t a); lra. }
  destruct (is_zero L x) eqn:I0.
  { apply (is_zero_iff L value EX), Qeq_eqR in I0. rewrite Q2R_0 in I0. change (v x = 0) in I0. injection Hy as <-. left. rewrite (IJ (PI / 2)); [lra|lra|rewrite cos_PI2; lra]. }
  destruct (is_one L x) eqn:I1.
  { apply (is_one_iff L value EX), Qeq_eqR in I1. rewrite Q2R_1 in I1. change (v x = 1) in I1. injection Hy as <-. left. rewrite (IJ 0); [|lra|rewrite cos_0; lra]. rewrite (v_zero L value EX), Rminus_0_r, Rabs_R0. lra. }
  destruct (d_eq L x (ONE_MINUS L)) eqn:I2.
  { apply (d_eq_iff L value EX), Qeq_eqR in I2. change (v x = v (ONE_MINUS L)) in I2. rewrite (v_minus L value EX) in I2. injection Hy as <-. left. rewrite (IJ PI); [|lra|rewrite cos_PI; lra].
    assert (VP : v (cPI L) = IZR 31415926535897932384626433833 / 10 ^ 28) by (apply (v_lit28 L value EX); reflexivity). pose proof pi_b as PB. rewrite <- VP, Rabs_minus_sym in PB. lra. }
  assert (N1 : v x <> 1). { intros N. assert (is_one L x = true); [|congruence]. apply (is_one_iff L value EX), eqR_Qeq. rewrite Q2R_1. exact N. }
  assert (N2 : v x <> -1). { intros N. assert (d_eq L x (ONE_MINUS L) = true); [|congruence]. apply (d_eq_iff L value EX), eqR_Qeq. change (v x = v (ONE_MINUS L)). rewrite (v_minus L value EX). exact N. }
  assert (Hx1 : Rabs (v x) < 1). { apply Rabs_def2' in Hx. apply Rabs_def1; lra. } pose proof (Rabs_def2 _ _ Hx1) as Hx2.
  destruct (one_square L value EX x Hx1) as (xx & d & X1 & X2 & X3 & X4 & X5). rewrite X1 in Hy. cbn [must] in Hy. rewrite X2 in Hy. cbn [must] in Hy. set (K := 1 - v x * v x) in *.
  destruct (checked_sqrt L fuel d) as [[a|]|k|] eqn:Q; try discriminate. cbn [ModelDecimal.call] in Hy. pose proof (Rabs_def2' _ _ X3) as X3'. destruct (root_square L value EX GR fuel K d a X4 ltac:(rewrite WE in *; lra) X3 X5 Q) as (R1 & R2 & R3 & R4).
  assert (SK : 0 <= sqrt K <= 1). { split; [apply sqrt_pos|]. rewrite <- sqrt_1. apply sqrt_le_1_alt. lra. } pose proof (sqrt_pos K) as SP.
  destruct (one_plus L value EX x) as (b & B1 & B2); [apply Rabs_le; lra|]. rewrite B1 in Hy. cbn [must] in Hy.
  assert (Bmin : e28 <= v b). { rewrite WE. apply (least L value EX). rewrite B2. lra. } assert (B0 : 0 < v b) by lra. assert (BM : v b < 2) by lra. set (i := / v b). assert (I : v b * i = 1) by (apply Rinv_r; lra). assert (i0 : 0 < i) by (apply Rinv_0_lt_compat, B0).
  assert (A0 : 0 <= v a) by lra. assert (IM : i <= 10 ^ 28). { unfold i. apply Rle_trans with (/ / 10 ^ 28); [apply Rinv_le_contravar; [lra|rewrite <- WE; exact Bmin]|rewrite Rinv_inv; lra]. }
  set (u := sqrt K / (1 + v x)) in *. assert (UI : u = sqrt K * i) by (unfold u, i; rewrite B2; reflexivity).
  (* the quotient is small: (a/b)^2 is about (1-x)/(1+x) *)
  assert (AK : v a <= 1.8 * sqrt K). { assert (S2 : 1.37 * / 10 ^ 14 <= sqrt K). { apply Rsqr_incr_0; [unfold Rsqr; rewrite sqrt_sqrt by lra; rewrite WE in X5; lra|lra|exact SP]. } apply Rabs_def2' in R1. lra. }
  assert (UU : u * u * v b <= 2). { rewrite UI. replace (sqrt K * i * (sqrt K * i) * v b) with (sqrt K * sqrt K * i * (v b * i)) by ring. rewrite sqrt_sqrt, I, Rmult_1_r by lra. replace K with ((1 - v x) * v b) by (unfold K; rewrite B2; ring). rewrite Rmult_assoc, I. lra. }
  assert (U0 : 0 <= u) by (rewrite UI; apply Rmult_le_pos; lra).
  assert (UM : u <= 1.5 * 10 ^ 14). { apply Rsqr_incr_0; [unfold Rsqr|exact U0|lra]. apply Rle_trans with (2 * i); [|lra]. apply Rmult_le_reg_r with (v b); [exact B0|]. rewrite (Rmult_assoc 2), (Rmult_comm i), I. lra. }
  assert (QM : v a / v b <= 1.8 * u). { unfold Rdiv. fold i. rewrite UI. replace (1.8 * (sqrt K * i)) with (1.8 * sqrt K * i) by ring. apply Rmult_le_compat_r; lra. } assert (Q0 : 0 <= v a / v b) by (apply Rmult_le_pos; [exact A0|left; exact i0]).
  destruct (divr L value EX a b) as (q & D1 & D2); [lra|rewrite Rabs_pos_eq; lra|]. rewrite (Rabs_pos_eq (v a / v b)) in D2 by exact Q0. rewrite D1 in Hy. cbn [must] in Hy.
  destruct (atan_near L value EX q fuel Hf) as (c & C1 & C2). unfold ModelDecimal.atan in Hy. rewrite C1 in Hy. cbn [ModelDecimal.call] in Hy.
  assert (T : t = 2 * Ratan.atan u). { rewrite (acos_half t); [|split; [lra|]; destruct (Rle_lt_or_eq_dec t PI ltac:(lra)) as [N|N]; [exact N|exfalso; apply N2; rewrite <- Hs, N; apply cos_PI]]. rewrite Hs. reflexivity. }
  (* q is not negative, and at least half of u *)
  assert (UE : 1.3 * / 10 ^ 14 * i <= u). { rewrite UI. apply Rmult_le_compat_r; [lra|]. apply Rsqr_incr_0; [unfold Rsqr; rewrite sqrt_sqrt by lra; rewrite WE in X5; lra|lra|exact SP]. }
  assert (IL : 0.5 <= i). { apply Rmult_le_reg_r with (v b); [exact B0|]. rewrite (Rmult_comm i), I. lra. }
  assert (Q5 : 0.6 * u <= v a / v b). { unfold Rdiv. fold i. rewrite UI. replace (0.6 * (sqrt K * i)) with (0.6 * sqrt K * i) by ring. apply Rmult_le_compat_r; lra. }
  pose proof (Rabs_def2' _ _ D2) as D3. assert (QH : 0.5 * u <= v q) by (rewrite WE in D3; lra). assert (Qp : 0 <= v q) by lra.
  assert (QU : Rabs (v q - u) * v b <= 50 * e28 + Rabs (v a - sqrt K)).
  { replace (v q - u) with ((v q - v a / v b) + (v a / v b - u)) by ring. apply Rle_trans with ((Rabs (v q - v a / v b) + Rabs (v a / v b - u)) * v b); [apply Rmult_le_compat_r; [lra|apply Rabs_triang]|]. rewrite Rmult_plus_distr_r.
    assert (V1 : Rabs (v a / v b - u) * v b = Rabs (v a - sqrt K)). { unfold Rdiv. fold i. rewrite UI. replace (v a * i - sqrt K * i) with ((v a - sqrt K) * i) by ring. rewrite Rabs_mult, (Rabs_pos_eq i) by lra. rewrite Rmult_assoc, (Rmult_comm i), I. ring. }
    assert (V2 : Rabs (v q - v a / v b) * v b <= (e28 + 10 * e28 * (v a / v b)) * v b) by (apply Rmult_le_compat_r; lra). replace ((e28 + 10 * e28 * (v a / v b)) * v b) with (e28 * v b + 10 * e28 * v a) in V2 by (field; lra).
    assert (e28 * v b <= e28 * 2) by (apply Rmult_le_compat_l; rewrite ?WE; lra). assert (e28 * v a <= e28 * 2) by (apply Rmult_le_compat_l; rewrite ?WE; lra). lra. }
  assert (AT : Rabs (Ratan.atan (v q) - Ratan.atan u) <= 50 * e28 + Rabs (v a - sqrt K)).
  { eapply Rle_trans; [apply atan_rel; assumption|]. assert (P : 0 < 1 + u * v q) by (assert (0 <= u * v q) by (apply Rmult_le_pos; assumption); lra). apply Rmult_le_reg_r with (1 + u * v q); [exact P|]. unfold Rdiv. rewrite (Rmult_assoc (Rabs (v q - u))), Rinv_l, Rmult_1_r by lra.
    assert (BB : 1 <= v b * (1 + u * v q)).
    { assert (Y1 : (1 + u * u) * v b = 2). { rewrite UI. replace ((1 + sqrt K * i * (sqrt K * i)) * v b) with (v b + sqrt K * sqrt K * i * (v b * i)) by ring. rewrite sqrt_sqrt, I, Rmult_1_r by lra. replace K with ((1 - v x) * v b) by (unfold K; rewrite B2; ring). rewrite (Rmult_assoc (1 - v x)), I. rewrite B2. ring. }
      assert (Y2 : u * (0.5 * u) <= u * v q) by (apply Rmult_le_compat_l; assumption). assert (Y3 : v b * (0.5 * (1 + u * u)) <= v b * (1 + u * v q)) by (apply Rmult_le_compat_l; lra). lra. }
    apply Rle_trans with (Rabs (v q - u) * (v b * (1 + u * v q))); [rewrite <- (Rmult_1_r (Rabs (v q - u))) at 1; apply Rmult_le_compat_l; [apply Rabs_pos|exact BB]|]. rewrite <- Rmult_assoc. apply Rmult_le_compat_r; [lra|exact QU]. }
  assert (CB : Rabs (v c) <= 1.6). { pose proof (atan_bound (v q)) as Z. assert (P16 : PI / 2 <= 1.58). { pose proof pi_b as P. apply Rabs_def2' in P. lra. } apply Rabs_def2' in C2. apply Rabs_le. lra. }
  destruct (near26 value _ _ (ed_mul _ _ EX (TWO L) c)) as (r & M1 & M2); [rewrite Q2R_mult; change (Rabs (v (TWO L) * v c) <= 390); rewrite (v_two L value EX), Rabs_mult, (Rabs_pos_eq 2); lra|]. rewrite Q2R_mult in M2. change (Rabs (v r - v (TWO L) * v c) <= / 10 ^ 26) in M2. rewrite (v_two L value EX) in M2.
  unfold d_mul in Hy at 1. rewrite M1 in Hy. cbn [must] in Hy. destruct (approx_near L value EX r) as (y' & Y1 & Y2 & _). rewrite Y1 in Hy. injection Hy as <-.
  assert (F : Rabs (v y' - t) <= 3.41 * / 10 ^ 16 + 2.2 * Rabs (v a - sqrt K)).
  { rewrite T. replace (v y' - 2 * Ratan.atan u) with ((v y' - v r) + ((v r - 2 * v c) + 2 * ((v c - Ratan.atan (v q)) + (Ratan.atan (v q) - Ratan.atan u)))) by ring. pose proof (Rabs_pos (v a - sqrt K)) as AP.
    pose proof (Rabs_triang (v y' - v r) ((v r - 2 * v c) + 2 * ((v c - Ratan.atan (v q)) + (Ratan.atan (v q) - Ratan.atan u)))) as T1. pose proof (Rabs_triang (v r - 2 * v c) (2 * ((v c - Ratan.atan (v q)) + (Ratan.atan (v q) - Ratan.atan u)))) as T2.
    rewrite (Rabs_mult 2), (Rabs_pos_eq 2) in T2 by lra. pose proof (Rabs_triang (v c - Ratan.atan (v q)) (Ratan.atan (v q) - Ratan.atan u)) as T3. rewrite WE in *. lra. }
  destruct (Rle_dec (Rabs (v x)) (1 - / 10 ^ 20)) as [X|X].
  - left. assert (K1 : / 10 ^ 20 <= K). { unfold K. rewrite <- (Rabs_pos_eq (v x * v x)) by apply Rle_0_sqr. rewrite Rabs_mult. assert (Rabs (v x) * Rabs (v x) <= (1 - / 10 ^ 20) * 1) by (apply Rmult_le_compat; try apply Rabs_pos; lra). lra. } specialize (R2 K1). lra.
  - right. split; [lra|exact X].
Qed.
End Real.
