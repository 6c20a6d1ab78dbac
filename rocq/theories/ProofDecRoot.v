(** * The decimal square root: what the Babylonian loop returns is near the real square root *)
From Coq Require Import List NArith ZArith QArith Qabs Qround Qreals Reals Bool Lia Lra String.
From Verif Require Import ModelBase ModelFloat ModelNum ModelOps ModelDecimal SpecDecimal SpecRoots ProofDecRef ProofDecimal ProofDecimal2 ProofDecTrig ProofDecFun ProofDecFun2 ProofReals ProofDecReal ProofDecReal2 ProofDecAtan ProofDecCbrt.
Local Open Scope R_scope.

Section Real.
Context {D : Type}.
Variable L : dlib D.
Variable value : D -> Q.
Hypothesis EX : exact_decimals L value.
Notation v := (ProofDecReal.v value).

(** A positive decimal is at least one in the 28th place. *)
Lemma least x : 0 < v x -> / 10 ^ 28 <= v x.
Proof.
  intros H. destruct (ed_representable _ _ EX x) as (c & s & S1 & _ & S2). apply Qeq_eqR in S2. rewrite Q2R_mult, !Q2R_int in S2. change (v x * IZR (10 ^ s) = IZR c) in S2.
  assert (P : 0 < IZR (10 ^ s)) by (apply IZR_lt, Z.pow_pos_nonneg; lia). assert (P2 : IZR (10 ^ s) <= 10 ^ 28). { rewrite (pow_IZR 10 28). apply IZR_le. change (10 ^ Z.of_nat 28)%Z with (10 ^ 28)%Z. apply Z.pow_le_mono_r; lia. }
  assert (C : 0 < IZR c) by (rewrite <- S2; apply Rmult_lt_0_compat; assumption). apply lt_IZR in C. assert (C2 : 1 <= IZR c) by (apply IZR_le; lia).
  assert (v x * IZR (10 ^ s) <= v x * 10 ^ 28) by (apply Rmult_le_compat_l; lra). apply Rmult_le_reg_r with (10 ^ 28); [apply pow_lt; lra|]. rewrite Rinv_l by (apply pow_nonzero; lra). lra.
Qed.
Lemma most x : Rabs (v x) <= 8 * 10 ^ 28.
Proof.
  pose proof (rep_bound _ (ed_representable _ _ EX x)) as Xb. apply Qle_Rle in Xb. rewrite Q2R_abs, Q2R_int in Xb. change (Rabs (v x) <= IZR (limit - 1)) in Xb. eapply Rle_trans; [exact Xb|].
  rewrite pow_IZR, <- mult_IZR. apply IZR_le. vm_compute. discriminate.
Qed.

Section Root.
Variable self : D.
Variable s : R.
Hypothesis Hs : / 10 ^ 14 <= s <= 3 * 10 ^ 14.
Hypothesis Ha : v self = s * s.
Lemma root_step x q t x' : 0.4 * s <= v x <= 1.6 * s -> d_div L self x = Some q -> d_add L q x = Some t -> d_mul L (HALF L) t = Some x' ->
  0.4 * s <= v x' <= 1.6 * s /\ Rabs (v x' - / 2 * (s * s / v x + v x)) <= e28 * (2.5 + 80 * s).
Proof.
  intros Hx E1 E2 E3. set (y := v x) in *. assert (S0 : 0 < s) by lra. assert (Y0 : 0 < y) by lra. assert (W : 0 < e28 <= / 10 ^ 27) by (rewrite e28_is; lra). assert (WE : e28 = / 10 ^ 28) by reflexivity.
  set (w := e28) in *. set (i := / y). assert (I : y * i = 1) by (apply Rinv_r; lra). assert (I0 : 0 < i) by (apply Rinv_0_lt_compat, Y0).
  set (p := s * s * i). assert (P1 : p <= 2.5 * s). { unfold p. assert (0.4 * s * i <= 1) by (rewrite <- I; apply Rmult_le_compat_r; lra). replace (s * s * i) with (s * (s * i)) by ring. replace (2.5 * s) with (s * 2.5) by ring. apply Rmult_le_compat_l; lra. }
  assert (P0 : 0.625 * s <= p). { unfold p. assert (1 <= 1.6 * s * i) by (rewrite <- I; apply Rmult_le_compat_r; lra). replace (s * s * i) with (s * (s * i)) by ring. replace (0.625 * s) with (s * 0.625) by ring. apply Rmult_le_compat_l; lra. }
  destruct (divr L value EX self x) as (q' & Q1 & Q2); [fold y; lra|fold y; rewrite Ha; unfold Rdiv; fold i; fold p; rewrite Rabs_pos_eq; lra|]. assert (q' = q) by congruence. subst q'. fold y in Q2. rewrite Ha in Q2. unfold Rdiv in Q2. fold i in Q2. fold p in Q2. fold w in Q2.
  rewrite (Rabs_pos_eq p) in Q2 by lra. assert (WS0 : 0 <= w * s) by nra. assert (WS : w * s <= / 10 ^ 27 * s) by (apply Rmult_le_compat_r; lra). assert (WP : w * p <= 2.5 * (w * s)). { replace (2.5 * (w * s)) with (w * (2.5 * s)) by ring. apply Rmult_le_compat_l; lra. }
  assert (Q3 : Rabs (v q - p) <= w + 25 * (w * s)) by lra. pose proof (Rabs_def2' _ _ Q3) as Q4.
  assert (small : w <= / 10 ^ 13 * s) by lra.
  destruct (addr L value EX q x) as (t' & T1 & T2); [fold y; rewrite Rabs_pos_eq; lra|]. assert (t' = t) by congruence. subst t'. fold y in T2. fold w in T2. rewrite (Rabs_pos_eq (v q + y)) in T2 by lra.
  assert (T3 : Rabs (v t - (v q + y)) <= w + 42 * (w * s)). { eapply Rle_trans; [exact T2|]. assert (w * (v q + y) <= w * (4.2 * s)) by (apply Rmult_le_compat_l; lra). lra. } pose proof (Rabs_def2' _ _ T3) as T4.
  assert (VH : v (HALF L) = / 2). { unfold HALF. assert (Z : (value (d_lit L 5 1) * inject_Z (10 ^ Z.of_N 1) == inject_Z 5)%Q) by (apply (ed_literal _ _ EX); [reflexivity|lia]). apply Qeq_eqR in Z. rewrite Q2R_mult, !Q2R_int in Z. change (v (d_lit L 5 1) * 10 = 5) in Z. lra. }
  destruct (mulr L value EX (HALF L) t) as (x'' & M1 & M2); [rewrite VH, Rabs_pos_eq; lra|]. assert (x'' = x') by congruence. subst x''. rewrite VH in M2. fold w in M2. rewrite (Rabs_pos_eq (/ 2 * v t)) in M2 by lra.
  assert (M3 : Rabs (v x' - / 2 * v t) <= w + 22 * (w * s)). { eapply Rle_trans; [exact M2|]. assert (w * (/ 2 * v t) <= w * (2.2 * s)) by (apply Rmult_le_compat_l; lra). lra. } pose proof (Rabs_def2' _ _ M3) as M4.
  assert (F : Rabs (v x' - / 2 * (p + y)) <= w * (2.5 + 80 * s)). { apply Rabs_le. split; lra. }
  split; [|unfold Rdiv; fold y; fold i; fold p; exact F]. apply Rabs_def2' in F.
  assert (A1 : s <= / 2 * (p + y)). { apply Rmult_le_reg_r with (2 * y); [lra|]. replace (/ 2 * (p + y) * (2 * y)) with (p * y + y * y) by field. replace (p * y) with (s * s) by (unfold p; rewrite Rmult_assoc, (Rmult_comm i), I; ring). pose proof (Rle_0_sqr (s - y)) as Sq. unfold Rsqr in Sq. lra. }
  assert (A2 : p + y <= 2.9 * s). { apply Rmult_le_reg_r with y; [lra|]. replace ((p + y) * y) with (p * y + y * y) by ring. replace (p * y) with (s * s) by (unfold p; rewrite Rmult_assoc, (Rmult_comm i), I; ring).
    assert (0 <= (y - 0.4 * s) * (2.5 * s - y)) by (apply Rmult_le_pos; lra). lra. }
  split; lra.
Qed.
Lemma root_loop : forall fuel x r y, 0.4 * s <= v r <= 1.6 * s ->
  (v x = v r -> exists z q t, 0.4 * s <= v z <= 1.6 * s /\ v z = v r /\ d_div L self z = Some q /\ d_add L q z = Some t /\ d_mul L (HALF L) t = Some r) ->
  sqrt_loop L fuel self x r = Ok (Some y) -> exists z q t, 0.4 * s <= v z <= 1.6 * s /\ v z = v y /\ d_div L self z = Some q /\ d_add L q z = Some t /\ d_mul L (HALF L) t = Some y.
Proof.
  induction fuel as [|fuel IH]; intros x r y Hr Hx; cbn [sqrt_loop]; destruct (d_eq L x r) eqn:B; intros Hy; try discriminate.
  - injection Hy as <-. apply Hx. apply (d_eq_iff L value EX), Qeq_eqR in B. exact B.
  - injection Hy as <-. apply Hx. apply (d_eq_iff L value EX), Qeq_eqR in B. exact B.
  - unfold ask in Hy. destruct (d_div L self r) as [q|] eqn:E1; [|discriminate]. destruct (d_add L q r) as [t|] eqn:E2; [|discriminate]. destruct (d_mul L (HALF L) t) as [r'|] eqn:E3; [|discriminate].
    destruct (root_step r q t r' Hr E1 E2 E3) as [R1 _]. apply (IH r r' y R1); [|exact Hy]. intros Ev. exists r, q, t. repeat split; auto; lra.
Qed.
Lemma root_fixed fuel r y : 0.5 * s <= v r <= 1.5 * s -> sqrt_loop L fuel self (ZERO L) r = Ok (Some y) -> Rabs (v y - s) <= e28 * (5 + 160 * s).
Proof.
  intros Hr Hy. assert (S0 : 0 < s) by lra. pose proof (v_zero L value EX) as V0. destruct (root_loop fuel (ZERO L) r y) as (z & q & t & Z1 & Z2 & E1 & E2 & E3); [lra|rewrite V0; lra|exact Hy|].
  destruct (root_step z q t y Z1 E1 E2 E3) as [R1 R2]. rewrite Z2 in R2. set (u := v y) in *. assert (U0 : 0 < u) by lra. set (b := e28 * (2.5 + 80 * s)) in *.
  replace (u - / 2 * (s * s / u + u)) with ((u - s) * ((u + s) / (2 * u))) in R2 by (field; lra). rewrite Rabs_mult in R2. assert (K : / 2 <= (u + s) / (2 * u)). { apply Rmult_le_reg_r with (2 * u); [lra|]. unfold Rdiv. rewrite (Rmult_assoc (u + s)), Rinv_l by lra. lra. }
  rewrite (Rabs_pos_eq ((u + s) / (2 * u))) in R2 by lra. assert (Rabs (u - s) * / 2 <= Rabs (u - s) * ((u + s) / (2 * u))) by (apply Rmult_le_compat_l; [apply Rabs_pos|exact K]).
  replace (e28 * (5 + 160 * s)) with (2 * b) by (unfold b; lra). lra.
Qed.
End Root.

Hypothesis GR : good_roots L value.
Lemma sqrt_near fuel x y : 0 <= v x -> checked_sqrt L fuel x = Ok (Some y) -> Rabs (v y - sqrt (v x)) <= e28 * (5 + 160 * sqrt (v x)) /\ (v x = 0 -> v y = 0) /\ 0 <= v y.
Proof.
  intros Hx. unfold checked_sqrt. destruct (d_sign_negative L x); [discriminate|]. destruct (d_to_f64 L x) as [f|] eqn:F; [|discriminate]. unfold ask. destruct (d_from_f64 L (f_sqrt f)) as [r|] eqn:R; [|discriminate].
  assert (Hx' : (0 <= value x)%Q) by (apply Rle_Qle; rewrite Q2R_0; exact Hx). destruct (GR x f r Hx' F R) as (G0 & G1 & G2). apply Qle_Rle in G0, G1, G2. rewrite !Q2R_mult in G1. rewrite (Q2R_mult 9), !Q2R_mult in G2. rewrite Q2R_0 in G0. change (Q2R 4) with (Q2R (inject_Z 4)) in *. change (Q2R 9) with (Q2R (inject_Z 9)) in *. rewrite !Q2R_int in *.
  change (Q2R (value r)) with (v r) in *. change (Q2R (value x)) with (v x) in *. intros Hy. destruct Hx as [Hx|Hx].
  - pose proof (least x Hx) as Lx. pose proof (most x) as Mx. rewrite Rabs_pos_eq in Mx by lra. set (s := sqrt (v x)) in *. assert (S2 : v x = s * s) by (symmetry; apply sqrt_sqrt; lra). assert (S0 : 0 < s) by (apply sqrt_lt_R0, Hx).
    assert (Hs : / 10 ^ 14 <= s <= 3 * 10 ^ 14).
    { split; apply Rsqr_incr_0; unfold Rsqr; try lra. }
    assert (Hr : 0.5 * s <= v r <= 1.5 * s) by (split; apply Rsqr_incr_0; unfold Rsqr; try lra).
    pose proof (root_fixed x s Hs S2 fuel r y Hr Hy) as Z. split; [exact Z|]. split; [intros; lra|]. apply Rabs_def2' in Z. assert (WE : e28 = / 10 ^ 28) by reflexivity. rewrite WE in Z. lra.
  - rewrite <- Hx in *. rewrite sqrt_0. clear Hx'. assert (R0 : v r = 0) by nra. assert (B : d_eq L (ZERO L) r = true). { apply (d_eq_iff L value EX), eqR_Qeq. change (v (ZERO L) = v r). rewrite (v_zero L value EX). lra. }
    assert (Y : y = r). { destruct fuel; cbn [sqrt_loop] in Hy; rewrite B in Hy; injection Hy as <-; reflexivity. } subst y. rewrite R0, Rminus_0_r, Rabs_R0. assert (e28 = / 10 ^ 28) by reflexivity. repeat split; try lra.
Qed.
End Real.
