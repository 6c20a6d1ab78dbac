(** * The decimal inverse hyperbolic functions *)
From Coq Require Import List NArith ZArith QArith Qabs Qround Qreals Reals Bool Lia Lra String.
From Verif Require Import ModelBase ModelFloat ModelNum ModelOps ModelDecimal SpecDecimal SpecRoots ProofDecRef ProofDecimal ProofDecimal2 ProofDecTrig ProofDecFun ProofDecFun2 ProofReals ProofAtan ProofDecReal ProofDecReal2 ProofDecLn ProofDecAtan ProofDecCbrt ProofDecRoot ProofDecArc.
Local Open Scope R_scope.

Lemma asinh_log t : t = ln (Rtrigo_def.sinh t + sqrt (Rtrigo_def.sinh t * Rtrigo_def.sinh t + 1)).
Proof. rewrite <- (arcsinh_sinh t) at 1. unfold arcsinh. do 4 f_equal. ring. Qed.
Lemma acosh_log t : 0 <= t -> t = ln (Rtrigo_def.cosh t + sqrt (Rtrigo_def.cosh t * Rtrigo_def.cosh t - 1)).
Proof.
  intros H. assert (S0 : 0 <= Rtrigo_def.sinh t). { unfold Rtrigo_def.sinh. assert (exp (- t) <= exp t) by (destruct H as [H|<-]; [left; apply exp_increasing; lra|rewrite Ropp_0; lra]). lra. }
  assert (E : exp t * exp (- t) = 1) by (rewrite <- exp_plus; replace (t + - t) with 0 by ring; apply exp_0).
  replace (Rtrigo_def.cosh t * Rtrigo_def.cosh t - 1) with (Rtrigo_def.sinh t * Rtrigo_def.sinh t) by (unfold Rtrigo_def.cosh, Rtrigo_def.sinh; rewrite <- E; field). rewrite sqrt_square by exact S0. replace (Rtrigo_def.cosh t + Rtrigo_def.sinh t) with (exp t) by (unfold Rtrigo_def.cosh, Rtrigo_def.sinh; field). symmetry. apply ln_exp.
Qed.
Lemma atanh_log t : Rtrigo_def.tanh t < 1 -> t = / 2 * ln ((1 + Rtrigo_def.tanh t) / (1 - Rtrigo_def.tanh t)).
Proof.
  intros H. assert (E : exp t * exp (- t) = 1) by (rewrite <- exp_plus; replace (t + - t) with 0 by ring; apply exp_0). pose proof (exp_pos t) as P. pose proof (exp_pos (- t)) as P'.
  replace ((1 + Rtrigo_def.tanh t) / (1 - Rtrigo_def.tanh t)) with (exp (2 * t)). { rewrite ln_exp. field. }
  replace (2 * t) with (t + t) by ring. rewrite exp_plus. unfold Rtrigo_def.tanh, Rtrigo_def.sinh, Rtrigo_def.cosh. replace (exp t * exp t) with (exp t / exp (- t)). 2:{ replace (exp (- t)) with (/ exp t) by (rewrite exp_Ropp; reflexivity). field. lra. } field. repeat split; lra.
Qed.

Section Real.
Context {D : Type}.
Variable L : dlib D.
Variable value : D -> Q.
Hypothesis EX : exact_decimals L value.
Notation v := (ProofDecReal.v value).
Variable fuel : nat.
Hypothesis Hf : (40 <= fuel)%nat.

Lemma near0 q r : computes value q r -> Rabs (Q2R q) <= 3 * 10 ^ 28 -> exists z, r = Some z /\ Rabs (v z - Q2R q) <= 1.
Proof.
  intros (_ & _ & C) Hq. destruct C as (z & -> & Z).
  { apply Rle_Qle. rewrite Q2R_abs, Q2R_int. eapply Rle_trans; [exact Hq|]. rewrite pow_IZR, <- mult_IZR. apply IZR_le. vm_compute. discriminate. }
  exists z. split; [reflexivity|]. specialize (Z 0%Z ltac:(lia)). change (inject_Z (10 ^ 0)) with 1%Q in Z. assert (H : (Qabs q * 1 < inject_Z (2 ^ 95))%Q).
  { apply Rlt_Qlt. rewrite Q2R_mult, Q2R_abs, Q2R_1, Q2R_int. eapply Rle_lt_trans; [rewrite Rmult_1_r; exact Hq|]. rewrite pow_IZR, <- mult_IZR. apply IZR_lt. reflexivity. }
  specialize (Z H). apply Qle_Rle in Z. rewrite Q2R_mult, Q2R_abs, Q2R_minus, Q2R_1, Rmult_1_r in Z. exact Z.
Qed.
Lemma atanh_near x t : -0.9 <= v x < 1 -> Rtrigo_def.tanh t = v x -> exists y, ModelDecimal.atanh L fuel x = Ok (Some y) /\ Rabs (v y - t) <= / 10 ^ 16.
Proof.
  intros Hx Ht. assert (WE : e28 = / 10 ^ 28) by reflexivity. unfold ModelDecimal.atanh. pose proof (v_one L value EX) as V1. pose proof (v_minus L value EX) as Vm.
  assert (G : d_lt L x (ONE_MINUS L) || d_gt L x (ONE L) = false). { apply orb_false_iff. rewrite (d_lt_false L value EX), (d_gt_false L value EX). split; apply Rle_Qle; change (Q2R (value x)) with (v x); [change (v (ONE_MINUS L) <= v x)|change (v x <= v (ONE L))]; lra. }
  rewrite G. destruct (one_plus L value EX x) as (a & A1 & A2); [apply Rabs_le; lra|]. destruct (one_minus L value EX x) as (b & B1 & B2); [apply Rabs_le; lra|]. rewrite A1. cbn [must]. rewrite B1. cbn [must].
  assert (B0 : e28 <= v b) by (rewrite WE; apply (least L value EX); lra). assert (NB : ~ (value b == 0)%Q) by (apply v_nz; rewrite WE in B0; lra). set (i := / v b). assert (I : v b * i = 1) by (apply Rinv_r; rewrite WE in B0; lra). assert (i0 : 0 < i) by (apply Rinv_0_lt_compat; rewrite WE in B0; lra).
  assert (IM : i <= 10 ^ 28). { unfold i. apply Rle_trans with (/ / 10 ^ 28); [apply Rinv_le_contravar; [lra|rewrite <- WE; exact B0]|rewrite Rinv_inv; lra]. }
  set (p := v a / v b). assert (PI : p = v a * i) by reflexivity. assert (PL : / 19 <= p). { apply Rmult_le_reg_r with (v b); [rewrite WE in B0; lra|]. rewrite PI, Rmult_assoc, (Rmult_comm i), I. lra. }
  assert (PM : p <= 2 * 10 ^ 28). { rewrite PI. apply Rle_trans with (2 * i); [apply Rmult_le_compat_r; lra|lra]. }
  assert (Qq : exists q, d_div L a b = Some q /\ Rabs (v q - p) <= / 10 ^ 26 * p).
  { destruct (Rle_dec p (10 ^ 28)) as [S|S].
    - destruct (divr L value EX a b) as (q & Q1 & Q2); [rewrite WE in B0; lra|fold p; rewrite Rabs_pos_eq; lra|]. exists q. split; [exact Q1|]. fold p in Q2. rewrite (Rabs_pos_eq p) in Q2 by lra. rewrite WE in Q2. lra.
    - destruct (near0 _ _ (ed_div _ _ EX a b NB)) as (q & Q1 & Q2); [rewrite Q2R_div by exact NB; change (Rabs p <= 3 * 10 ^ 28); rewrite Rabs_pos_eq; lra|]. rewrite Q2R_div in Q2 by exact NB. change (Rabs (v q - p) <= 1) in Q2. exists q. split; [exact Q1|]. lra. }
  destruct Qq as (q & Q1 & Q2). rewrite Q1. cbn [must]. pose proof (Rabs_def2' _ _ Q2) as Q3. assert (QL : / 20 <= v q) by lra. destruct (ln_near L value EX fuel q Hf QL) as (l & L1 & L2). pose proof (ln_bound L value EX q QL) as LB. rewrite L1. cbn [ModelDecimal.call].
  assert (LP : Rabs (ln (v q) - ln p) <= / 10 ^ 25). { eapply Rle_trans; [apply (ln_lip (v q) p (0.9 * p)); lra|]. unfold Rdiv. apply Rmult_le_reg_r with (0.9 * p); [lra|]. rewrite Rmult_assoc, Rinv_l, Rmult_1_r by lra. lra. }
  assert (VH : v (HALF L) = / 2). { unfold HALF. assert (Z : (value (d_lit L 5 1) * inject_Z (10 ^ Z.of_N 1) == inject_Z 5)%Q) by (apply (ed_literal _ _ EX); [reflexivity|lia]). apply Qeq_eqR in Z. rewrite Q2R_mult, !Q2R_int in Z. change (v (d_lit L 5 1) * 10 = 5) in Z. lra. }
  assert (VL : Rabs (v l) <= 71). { replace (v l) with ((v l - ln (v q)) + ln (v q)) by ring. eapply Rle_trans; [apply Rabs_triang|]. lra. }
  destruct (near26 value _ _ (ed_mul _ _ EX l (HALF L))) as (r & M1 & M2); [rewrite Q2R_mult; change (Rabs (v l * v (HALF L)) <= 390); rewrite VH, Rabs_mult, (Rabs_pos_eq (/ 2)); lra|]. rewrite Q2R_mult in M2. change (Rabs (v r - v l * v (HALF L)) <= / 10 ^ 26) in M2. rewrite VH in M2.
  unfold d_mul. rewrite M1. cbn [ask]. exists r. split; [reflexivity|]. rewrite (atanh_log t) by lra. rewrite Ht. replace ((1 + v x) / (1 - v x)) with p by (unfold p; rewrite A2, B2; reflexivity).
  replace (v r - / 2 * ln p) with ((v r - v l * / 2) + / 2 * ((v l - ln (v q)) + (ln (v q) - ln p))) by ring. eapply Rle_trans; [apply Rabs_triang|]. rewrite (Rabs_mult (/ 2)), (Rabs_pos_eq (/ 2)) by lra. pose proof (Rabs_triang (v l - ln (v q)) (ln (v q) - ln p)). lra.
Qed.

Hypothesis GR : good_roots L value.
Lemma asinh_near x y t : -9 <= v x <= 10 ^ 13 -> ModelDecimal.asinh L fuel x = Ok (Some y) -> Rtrigo_def.sinh t = v x -> Rabs (v y - t) <= 2 * / 10 ^ 16.
Proof.
  intros Hx Hy Ht. assert (WE : e28 = / 10 ^ 28) by reflexivity. unfold ModelDecimal.asinh in Hy. pose proof (v_one L value EX) as V1. set (X := v x) in *. set (Y := X * X + 1).
  assert (XX : 0 <= X * X) by apply Rle_0_sqr. assert (XM : X * X <= 10 ^ 26). { destruct (Rle_dec 0 X) as [S|S]; [apply Rle_trans with (10 ^ 13 * 10 ^ 13); [apply Rmult_le_compat; lra|lra]|]. assert (X * X <= 9 * 9) by nra. lra. }
  destruct (mulr L value EX x x) as (x2 & A1 & A2); [fold X; rewrite Rabs_pos_eq; lra|]. rewrite A1 in Hy. cbn [must] in Hy. fold X in A2. rewrite (Rabs_pos_eq (X * X)) in A2 by lra. pose proof (Rabs_def2' _ _ A2) as A3.
  assert (S1 : -0.01 <= v x2 <= 1.01 * (X * X) + 0.01) by (rewrite WE in A3; lra).
  destruct (addr L value EX x2 (ONE L)) as (y1 & B1 & B2); [rewrite V1, Rabs_pos_eq; lra|]. rewrite B1 in Hy. cbn [must] in Hy. rewrite V1 in B2. rewrite (Rabs_pos_eq (v x2 + 1)) in B2 by lra. pose proof (Rabs_def2' _ _ B2) as B3.
  assert (Y1 : Rabs (v y1 - Y) <= 25 * e28 * Y) by (unfold Y; apply Rabs_le; rewrite WE in *; lra). assert (Y0 : 1 <= Y) by (unfold Y; lra).
  destruct (checked_sqrt L fuel y1) as [[s|]|k|] eqn:Q; try discriminate. cbn [call_must] in Hy. pose proof (Rabs_def2' _ _ Y1) as Y2. assert (Yp : 0.9 <= v y1) by (rewrite WE in Y2; lra).
  destruct (sqrt_near L value EX GR fuel y1 s ltac:(lra) Q) as (R1 & _ & R2). set (r := sqrt Y) in *. assert (RR : r * r = Y) by (apply sqrt_sqrt; lra). assert (r1 : 1 <= r) by (rewrite <- sqrt_1; apply sqrt_le_1_alt; lra).
  assert (R3 : Rabs (sqrt (v y1) - r) <= 25 * e28 * r). { eapply Rle_trans; [apply sqrt_diff; lra|]. fold r. apply Rmult_le_reg_r with r; [lra|]. unfold Rdiv. rewrite (Rmult_assoc _ (/ r)), Rinv_l, Rmult_1_r by lra. replace (25 * e28 * r * r) with (25 * e28 * (r * r)) by ring. rewrite RR. exact Y1. }
  pose proof (Rabs_def2' _ _ R3) as R4. assert (R5 : Rabs (v s - r) <= 200 * e28 * r). { replace (v s - r) with ((v s - sqrt (v y1)) + (sqrt (v y1) - r)) by ring. eapply Rle_trans; [apply Rabs_triang|]. rewrite WE in *. lra. } pose proof (Rabs_def2' _ _ R5) as R6.
  assert (XR : - r <= X <= r). { apply Rabs_def2'. apply Rsqr_incr_0; [unfold Rsqr; rewrite <- Rabs_mult, Rabs_pos_eq by exact XX; rewrite RR; unfold Y; lra|apply Rabs_pos|lra]. }
  assert (rM : r <= 1.1 * 10 ^ 13). { apply Rsqr_incr_0; [unfold Rsqr; rewrite RR; unfold Y; lra|lra|lra]. }
  destruct (addr L value EX x s) as (z & C1 & C2); [fold X; apply Rabs_le; rewrite WE in R6; lra|]. rewrite C1 in Hy. cbn [must] in Hy. fold X in C2.
  assert (AB : Rabs (X + v s) <= 2.1 * r) by (apply Rabs_le; rewrite WE in R6; lra). set (Z := X + r). assert (ZZ : Rabs (v z - Z) <= 225 * e28 * r). { unfold Z. replace (v z - (X + r)) with ((v z - (X + v s)) + (v s - r)) by ring. eapply Rle_trans; [apply Rabs_triang|]. rewrite WE in *. lra. }
  assert (ZL : / 19 <= Z /\ / 200 * r <= Z).
  { destruct (Rle_dec 0 X) as [S|S]; [unfold Z; lra|]. assert (r9 : r <= 9.1). { apply Rsqr_incr_0; [unfold Rsqr; rewrite RR; unfold Y; assert (- X * - X <= 9 * 9) by (apply Rmult_le_compat; lra); lra|lra|lra]. } assert (ZP : Z * (r - X) = 1) by (unfold Z; replace ((X + r) * (r - X)) with (r * r - X * X) by ring; rewrite RR; unfold Y; ring).
    assert (Z0 : 0 < Z). { apply Rnot_le_lt. intros N. assert (Z * (r - X) <= 0 * (r - X)) by (apply Rmult_le_compat_r; lra). lra. } assert (/ 19 <= Z). { apply Rnot_lt_le. intros N. assert (Z * (r - X) < / 19 * 19) by (apply Rmult_le_0_lt_compat; lra). lra. } split; lra. }
  destruct ZL as [Z1 Z2]. pose proof (Rabs_def2' _ _ ZZ) as ZZ2. assert (zl : / 20 <= v z /\ 0.9 * Z <= v z) by (rewrite WE in ZZ2; lra). destruct zl as [z1 z2]. destruct (ln_near L value EX fuel z Hf z1) as (l & L1 & L2). rewrite L1 in Hy. injection Hy as <-.
  assert (LN : Rabs (ln (v z) - ln Z) <= / 10 ^ 20). { eapply Rle_trans; [apply (ln_lip (v z) Z (0.9 * Z)); lra|]. unfold Rdiv. apply Rmult_le_reg_r with (0.9 * Z); [lra|]. rewrite Rmult_assoc, Rinv_l, Rmult_1_r by lra. rewrite WE in ZZ. lra. }
  rewrite (asinh_log t), Ht. fold X. fold Y. fold r. fold Z. replace (v l - ln Z) with ((v l - ln (v z)) + (ln (v z) - ln Z)) by ring. eapply Rle_trans; [apply Rabs_triang|]. lra.
Qed.
Lemma acosh_near x y t : 1 <= v x <= 10 ^ 13 -> ModelDecimal.acosh L fuel x = Ok (Some y) -> 0 <= t -> Rtrigo_def.cosh t = v x ->
  Rabs (v y - t) <= 5 * / 10 ^ 14 /\ (1 + / 10 ^ 10 <= v x -> Rabs (v y - t) <= 2 * / 10 ^ 16).
Proof.
  intros Hx Hy Ht0 Ht. assert (WE : e28 = / 10 ^ 28) by reflexivity. unfold ModelDecimal.acosh in Hy. destruct (d_lt L x (ONE L)); [discriminate|]. pose proof (v_one L value EX) as V1. set (X := v x) in *. set (Y := X * X - 1).
  assert (XX : 1 <= X * X) by (rewrite <- (Rmult_1_r 1); apply Rmult_le_compat; lra). assert (XX2 : X <= X * X) by (rewrite <- (Rmult_1_r X) at 1; apply Rmult_le_compat_l; lra). assert (XM : X * X <= 10 ^ 26) by (apply Rle_trans with (10 ^ 13 * 10 ^ 13); [apply Rmult_le_compat; lra|lra]).
  assert (SQ : exists x2, d_mul L x x = Some x2 /\ Rabs (v x2 - X * X) <= e28 + 10 * e28 * (X * X) /\ 1 <= v x2).
  { destruct (mulr L value EX x x) as (x2 & A1 & A2); [fold X; rewrite Rabs_pos_eq; lra|]. fold X in A2. rewrite (Rabs_pos_eq (X * X)) in A2 by lra. exists x2. split; [exact A1|]. split; [exact A2|]. destruct (Rle_dec X 1.7) as [B|B].
    - destruct (Rle_lt_or_eq_dec 1 X ltac:(lra)) as [G|G].
      + pose proof (above_one L value EX x G) as G1. fold X in G1. destruct (near28 value _ _ (ed_mul _ _ EX x x)) as (x3 & C1 & C2); [rewrite Q2R_mult; change (Rabs (X * X) <= 3); rewrite Rabs_pos_eq by lra; apply Rle_trans with (1.7 * 1.7); [apply Rmult_le_compat; lra|lra]|].
        unfold d_mul in A1. assert (x3 = x2) by congruence. subst x3. rewrite Q2R_mult in C2. change (Rabs (v x2 - X * X) <= / 10 ^ 28) in C2. apply Rabs_def2' in C2. rewrite WE in G1. lra.
      + destruct (computes_exact value _ _ (ed_mul _ _ EX x x)) as (x3 & C1 & C2). { apply (rep_comp (inject_Z 1)); [|apply int_rep; reflexivity]. apply eqR_Qeq. rewrite Q2R_mult, Q2R_int. change (1 = X * X). rewrite <- G. ring. }
        unfold d_mul in A1. assert (x3 = x2) by congruence. subst x3. apply Qeq_eqR in C2. rewrite Q2R_mult in C2. change (v x2 = X * X) in C2. lra.
    - apply Rabs_def2' in A2. assert (1.7 * 1.7 <= X * X) by (apply Rmult_le_compat; lra). rewrite WE in A2. lra. }
  destruct SQ as (x2 & A1 & A2 & A3). rewrite A1 in Hy. cbn [must] in Hy. destruct (minus_one L value EX x2 A3) as (y1 & B1 & B2). rewrite B1 in Hy. cbn [must] in Hy.
  assert (Y1 : Rabs (v y1 - Y) <= 11 * e28 * (X * X)) by (rewrite B2; unfold Y; replace (v x2 - 1 - (X * X - 1)) with (v x2 - X * X) by ring; rewrite WE in *; lra). assert (Y0 : 0 <= Y) by (unfold Y; lra). pose proof (Rabs_def2' _ _ Y1) as Y2.
  destruct (checked_sqrt L fuel y1) as [[s|]|k|] eqn:Q; try discriminate. cbn [ModelDecimal.call] in Hy. destruct (sqrt_near L value EX GR fuel y1 s ltac:(lra) Q) as (R1 & _ & R2). set (r := sqrt Y) in *. assert (RR : r * r = Y) by (apply sqrt_sqrt; exact Y0). pose proof (sqrt_pos Y) as r0. fold r in r0.
  assert (rX : r <= X) by (apply Rsqr_incr_0; [unfold Rsqr; rewrite RR; unfold Y; lra|exact r0|lra]).
  assert (Sy : sqrt (v y1) <= 1.1 * X). { apply Rsqr_incr_0; [unfold Rsqr; rewrite sqrt_sqrt by lra; unfold Y in Y2; rewrite WE in Y2; lra|apply sqrt_pos|lra]. } pose proof (sqrt_pos (v y1)) as Sp.
  assert (R3 : forall b, Rabs (sqrt (v y1) - r) <= b * X -> Rabs (v s - r) <= (b + 190 * e28) * X). { intros b B. replace (v s - r) with ((v s - sqrt (v y1)) + (sqrt (v y1) - r)) by ring. eapply Rle_trans; [apply Rabs_triang|]. rewrite WE in *. lra. }
  assert (S1 : 0 <= v s <= 1.3 * X). { split; [exact R2|]. apply Rabs_def2' in R1. rewrite WE in R1. lra. }
  destruct (addr L value EX x s) as (z & C1 & C2); [fold X; rewrite Rabs_pos_eq; lra|]. rewrite C1 in Hy. cbn [must] in Hy. fold X in C2. rewrite (Rabs_pos_eq (X + v s)) in C2 by lra. set (Z := X + r).
  assert (z1 : 0.9 * X <= v z) by (apply Rabs_def2' in C2; rewrite WE in C2; lra). destruct (ln_near L value EX fuel z Hf ltac:(lra)) as (l & L1 & L2). rewrite L1 in Hy. injection Hy as <-.
  assert (F : forall b, 0 <= b -> Rabs (sqrt (v y1) - r) <= b * X -> Rabs (v l - t) <= 1.3 * / 10 ^ 16 + 1.2 * (b + 220 * e28)).
  { intros b B0 B. specialize (R3 b B). assert (ZZ : Rabs (v z - Z) <= (b + 220 * e28) * X). { unfold Z. replace (v z - (X + r)) with ((v z - (X + v s)) + (v s - r)) by ring. eapply Rle_trans; [apply Rabs_triang|]. rewrite WE in *. lra. }
    assert (LN : Rabs (ln (v z) - ln Z) <= 1.2 * (b + 220 * e28)). { eapply Rle_trans; [apply (ln_lip (v z) Z (0.9 * X)); unfold Z; lra|]. unfold Rdiv. apply Rmult_le_reg_r with (0.9 * X); [lra|]. rewrite Rmult_assoc, Rinv_l, Rmult_1_r by lra. assert (0 <= b * X) by (apply Rmult_le_pos; lra). assert (0 <= (b + 220 * e28) * X) by (apply Rmult_le_pos; rewrite ?WE; lra). lra. }
    rewrite (acosh_log t Ht0), Ht. fold X. fold Y. fold r. fold Z. replace (v l - ln Z) with ((v l - ln (v z)) + (ln (v z) - ln Z)) by ring. eapply Rle_trans; [apply Rabs_triang|]. lra. }
  split.
  - eapply Rle_trans; [apply (F (3.4 * / 10 ^ 14)); [lra|]|rewrite WE; lra]. eapply Rle_trans; [apply sqrt_gap; lra|]. replace (3.4 * / 10 ^ 14 * X) with (sqrt (3.4 * / 10 ^ 14 * X * (3.4 * / 10 ^ 14 * X))) by (apply sqrt_square; lra). apply sqrt_le_1_alt. rewrite WE in Y1. lra.
  - intros HX. eapply Rle_trans; [apply (F (/ 10 ^ 20)); [lra|]|rewrite WE; lra]. assert (YL : 0.9 * / 10 ^ 10 * (X * X) <= Y). { unfold Y. replace (X * X - 1) with ((X - 1) * (X + 1)) by ring. replace (0.9 * / 10 ^ 10 * (X * X)) with (0.9 * / 10 ^ 10 * X * X) by ring. apply Rmult_le_compat; lra. }
    assert (rL : 0.9 * / 10 ^ 5 * X <= r). { apply Rsqr_incr_0; [unfold Rsqr; rewrite RR; lra|lra|exact r0]. } eapply Rle_trans; [apply sqrt_diff; lra|]. fold r. apply Rmult_le_reg_r with r; [lra|]. unfold Rdiv. rewrite (Rmult_assoc _ (/ r)), Rinv_l, Rmult_1_r by lra.
    assert (0.9 * / 10 ^ 5 * X * X <= r * X) by (apply Rmult_le_compat_r; lra). rewrite WE in Y1. lra.
Qed.
End Real.
