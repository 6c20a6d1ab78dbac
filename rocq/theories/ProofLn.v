(** * The logarithm as a sum, an enclosure of ln 10 *)
From Coq Require Import ZArith QArith Qabs Qreals Reals Lra Lia.
From Verif Require Import ProofReals.
Local Open Scope R_scope.

(** [lsum n t] is t + t^2/2 + ... + t^n/n. *)
Fixpoint lsum (n : nat) (t : R) : R := match n with O => 0 | S m => lsum m t + t ^ S m / INR (S m) end.
Fixpoint gsum (n : nat) (t : R) : R := match n with O => 0 | S m => gsum m t + t ^ m end.
Lemma gsum_geo n t : gsum n t * (1 - t) = 1 - t ^ n.
Proof. induction n as [|n IH]; cbn [gsum pow]; [ring|]. rewrite Rmult_plus_distr_r, IH. ring. Qed.
Lemma lsum_deriv n t : derivable_pt_lim (lsum n) t (gsum n t).
Proof.
  induction n as [|n IH]; cbn [lsum gsum]; [apply derivable_pt_lim_const|].
  apply (derivable_pt_lim_plus (lsum n) (fun t => t ^ S n / INR (S n))); [exact IH|].
  replace (t ^ n) with (INR (S n) * t ^ pred (S n) * / INR (S n)) by (cbn [pred]; field; apply not_0_INR; lia).
  intros eps He. destruct (derivable_pt_lim_pow t (S n) (eps * INR (S n))) as (delta & Hd); [apply Rmult_lt_0_compat; [exact He|apply lt_0_INR; lia]|].
  exists delta. intros h H0 Hh. specialize (Hd h H0 Hh). assert (P : 0 < INR (S n)) by (apply lt_0_INR; lia).
  replace (((t + h) ^ S n / INR (S n) - t ^ S n / INR (S n)) / h - INR (S n) * t ^ pred (S n) * / INR (S n)) with ((((t + h) ^ S n - t ^ S n) / h - INR (S n) * t ^ pred (S n)) * / INR (S n)) by (field; split; lra).
  rewrite Rabs_mult, (Rabs_pos_eq (/ INR (S n))) by (left; apply Rinv_0_lt_compat; exact P). apply Rmult_lt_reg_r with (INR (S n)); [exact P|]. rewrite Rmult_assoc, Rinv_l, Rmult_1_r by lra. exact Hd.
Qed.
Lemma ln_deriv t : t < 1 -> derivable_pt_lim (fun t => - ln (1 - t)) t (/ (1 - t)).
Proof.
  intros H. replace (/ (1 - t)) with (- (/ (1 - t) * (0 - 1))) by ring.
  apply (derivable_pt_lim_opp (fun t => ln (1 - t))). apply (derivable_pt_lim_comp (fun t => 1 - t) ln).
  - apply (derivable_pt_lim_minus (fun _ => 1) (fun t => t)); [apply derivable_pt_lim_const|apply derivable_pt_lim_id].
  - apply derivable_pt_lim_ln. lra.
Qed.
Lemma ln_rest n t : 0 <= t < 1 -> 0 <= - ln (1 - t) - lsum n t <= t ^ S n / (1 - t).
Proof.
  intros [H0 H1]. destruct H0 as [H0|<-].
  - set (f := fun t => - ln (1 - t) - lsum n t). assert (Df : forall c, 0 <= c <= t -> derivable_pt_lim f c (/ (1 - c) - gsum n c)).
    { intros c Hc. apply (derivable_pt_lim_minus (fun t => - ln (1 - t)) (lsum n)); [apply ln_deriv; lra|apply lsum_deriv]. }
    destruct (MVT_cor2 f (fun c => / (1 - c) - gsum n c) 0 t H0 Df) as (c & E & Hc).
    assert (F0 : f 0 = 0). { unfold f. rewrite Rminus_0_r, ln_1. assert (lsum n 0 = 0) as ->; [|ring]. clear. induction n as [|n IH]; [reflexivity|]. cbn [lsum]. rewrite IH, pow_i by lia. unfold Rdiv. ring. }
    rewrite F0, !Rminus_0_r in E. change (0 <= f t <= t ^ S n / (1 - t)). rewrite E.
    assert (G : / (1 - c) - gsum n c = c ^ n / (1 - c)). { pose proof (gsum_geo n c) as G. assert (G2 : gsum n c = (1 - c ^ n) / (1 - c)) by (rewrite <- G; field; lra). rewrite G2. field. lra. }
    rewrite G. assert (P0 : 0 <= c ^ n) by (apply pow_le; lra). assert (P1 : c ^ n <= t ^ n) by (apply pow_incr; lra). assert (I0 : 0 < / (1 - c) <= / (1 - t)) by (split; [apply Rinv_0_lt_compat; lra|apply Rinv_le_contravar; lra]).
    unfold Rdiv. split; [apply Rmult_le_pos; [apply Rmult_le_pos|]; lra|]. cbn [pow]. rewrite (Rmult_comm t (t ^ n)), !Rmult_assoc, (Rmult_comm t (/ (1 - t))), <- !Rmult_assoc. apply Rmult_le_compat_r; [lra|]. apply Rmult_le_compat; lra.
  - rewrite Rminus_0_r, ln_1. assert (lsum n 0 = 0) as ->. { induction n as [|n IH]; [reflexivity|]. cbn [lsum]. rewrite IH, pow_i by lia. unfold Rdiv. ring. } rewrite pow_i by lia. lra.
Qed.

(** ** ln 10 *)
Fixpoint qlsum (n : nat) (t : Q) : Q := match n with O => 0%Q | S m => Qred (qlsum m t + qpow t (S m) / inject_Z (Z.of_nat (S m)))%Q end.
Lemma qlsum_R n t : Q2R (qlsum n t) = lsum n (Q2R t).
Proof.
  induction n as [|n IH]; [cbn; unfold Q2R; cbn; lra|]. change (qlsum (S n) t) with (Qred (qlsum n t + qpow t (S n) / inject_Z (Z.of_nat (S n)))%Q). change (lsum (S n) (Q2R t)) with (lsum n (Q2R t) + Q2R t ^ S n / INR (S n)).
  rewrite Q2R_red, Q2R_plus, IH, Q2R_div, qpow_R, Q2R_Z, <- INR_IZR_INZ; [reflexivity|]. change 0%Q with (inject_Z 0). rewrite inject_Z_injective. lia.
Qed.
Definition LN10_hat : Q := 23025850929940456840179914546 # 10000000000000000000000000000.
Lemma ln10_split : ln 10 = 3 * - ln (1 - / 2) + - ln (1 - / 5).
Proof.
  replace (1 - / 2) with (/ 2) by lra. replace (1 - / 5) with (/ (5 / 4)) by lra. rewrite !ln_Rinv by lra. rewrite !Ropp_involutive.
  replace 10 with (2 * 2 * 2 * (5 / 4)) by lra. rewrite !ln_mult by lra. ring.
Qed.
Lemma LN10_enclosed : Rabs (ln 10 - Q2R LN10_hat) <= 2 * / 10 ^ 28.
Proof.
  rewrite ln10_split. destruct (ln_rest 110 (/ 2) ltac:(lra)) as [A1 A2]. destruct (ln_rest 50 (/ 5) ltac:(lra)) as [B1 B2].
  replace (/ 2) with (Q2R (1 # 2)) in A1 at 2 by (unfold Q2R; cbn; lra). replace (lsum 110 (/ 2)) with (Q2R (qlsum 110 (1 # 2))) in A2 by (rewrite qlsum_R; f_equal; unfold Q2R; cbn; lra).
  replace (lsum 50 (/ 5)) with (Q2R (qlsum 50 (1 # 5))) in B1, B2 by (rewrite qlsum_R; f_equal; unfold Q2R; cbn; lra). rewrite <- qlsum_R in A1.
  assert (L : Q2R (LN10_hat - (1 # 10000000000000000000000000000))%Q <= Q2R (3 * qlsum 110 (1 # 2) + qlsum 50 (1 # 5))%Q) by (apply Qle_Rle; vm_compute; discriminate).
  assert (U : Q2R (3 * qlsum 110 (1 # 2) + qlsum 50 (1 # 5))%Q <= Q2R (LN10_hat + (1 # 10000000000000000000000000000))%Q) by (apply Qle_Rle; vm_compute; discriminate).
  rewrite Q2R_minus, Q2R_plus, Q2R_mult in L. rewrite !Q2R_plus, Q2R_mult in U. replace (Q2R 3) with 3 in * by (unfold Q2R; cbn; lra). replace (Q2R (1 # 10000000000000000000000000000)) with (/ 10 ^ 28) in * by (unfold Q2R; cbn; lra).
  assert (P1 : (/ 2) ^ 111 / (1 - / 2) <= / 10 ^ 30) by lra. assert (P2 : (/ 5) ^ 51 / (1 - / 5) <= / 10 ^ 30) by lra. change (S 110) with 111%nat in A2. change (S 50) with 51%nat in B2.
  set (a := Q2R (qlsum 110 (1 # 2))) in *. set (b := Q2R (qlsum 50 (1 # 5))) in *. set (h := Q2R LN10_hat) in *. clearbody a b h. apply Rabs_le. lra.
Qed.
Lemma pow95 t : 0 <= t <= 19 / 20 -> t ^ 1000 / (1 - t) <= / 10 ^ 20.
Proof.
  intros H. assert (A : 0 <= t ^ 10 <= 6 / 10). { split; [apply pow_le; lra|]. apply Rle_trans with ((19 / 20) ^ 10); [apply pow_incr; exact H|lra]. }
  assert (B : 0 <= (t ^ 10) ^ 10 <= 7 / 1000). { split; [apply pow_le; lra|]. apply Rle_trans with ((6 / 10) ^ 10); [apply pow_incr; exact A|lra]. }
  assert (C : 0 <= ((t ^ 10) ^ 10) ^ 10 <= / 2 * / 10 ^ 21). { split; [apply pow_le; lra|]. apply Rle_trans with ((7 / 1000) ^ 10); [apply pow_incr; exact B|lra]. }
  rewrite <- !pow_mult in C. change (10 * 10 * 10)%nat with 1000%nat in C. assert (I : 0 < / (1 - t) <= 20) by (split; [apply Rinv_0_lt_compat; lra|replace 20 with (/ (1 / 20)) by field; apply Rinv_le_contravar; lra]).
  unfold Rdiv. apply Rle_trans with (/ 2 * / 10 ^ 21 * 20); [|lra]. apply Rmult_le_compat; [exact (proj1 C)|left; exact (proj1 I)|exact (proj2 C)|exact (proj2 I)].
Qed.
