(** * The arctangent as a continued fraction *)
From Coq Require Import ZArith Reals Lra Lia.
Local Open Scope R_scope.

(** atan x = x/(1 + x^2/(3 + (2x)^2/(5 + (3x)^2/(7 + ...)))). The remainders are quotients of the functions [a n]. *)
Fixpoint a (n : nat) (y : R) : R :=
  match n with
  | O => atan y
  | S m => match m with O => y - atan y | S k => (INR k + 1) * (INR k + 1) * (y * y) * a k y - (2 * INR k + 3) * a m y end
  end.
Lemma a_SS n y : a (S (S n)) y = (INR n + 1) * (INR n + 1) * (y * y) * a n y - (2 * INR n + 3) * a (S n) y. Proof. reflexivity. Qed.
Lemma one_sq y : 0 < 1 + y * y. Proof. nra. Qed.
Lemma a0_d y : derivable_pt_lim (a 0) y (/ (1 + y * y)).
Proof. pose proof (derivable_pt_lim_atan y) as H. replace (1 + y ^ 2) with (1 + y * y) in H by ring. exact H. Qed.
Lemma a1_d y : derivable_pt_lim (a 1) y (1 - / (1 + y * y)).
Proof. apply (derivable_pt_lim_minus id atan); [apply derivable_pt_lim_id|apply a0_d]. Qed.
Lemma csq_d c y : derivable_pt_lim (fun y => c * (y * y)) y (c * (2 * y)).
Proof.
  apply (derivable_pt_lim_scal (fun y => y * y)). replace (2 * y) with (1 * y + y * 1) by ring. apply (derivable_pt_lim_mult id id y 1 1); apply derivable_pt_lim_id.
Qed.
Lemma aSS_d n y d e : derivable_pt_lim (a n) y d -> derivable_pt_lim (a (S n)) y e ->
  derivable_pt_lim (a (S (S n))) y (((INR n + 1) * (INR n + 1) * (2 * y) * a n y + (INR n + 1) * (INR n + 1) * (y * y) * d) - (2 * INR n + 3) * e).
Proof.
  intros H0 H1. apply (derivable_pt_lim_minus (fun y => (INR n + 1) * (INR n + 1) * (y * y) * a n y) (fun y => (2 * INR n + 3) * a (S n) y)).
  - apply (derivable_pt_lim_mult (fun y => (INR n + 1) * (INR n + 1) * (y * y)) (a n)); [apply csq_d|exact H0].
  - apply (derivable_pt_lim_scal (a (S n))). exact H1.
Qed.
Definition a' (n : nat) (y : R) : R := ((INR n + 1) * y * a (S n) y + (INR n + 1) * (INR n + 1) * y * a n y) / (1 + y * y).
Lemma a_deriv n : forall y, derivable_pt_lim (a (S n)) y (a' n y) /\ derivable_pt_lim (a (S (S n))) y (a' (S n) y).
Proof.
  induction n as [|n IH]; intros y; pose proof (one_sq y) as Y.
  - assert (A : derivable_pt_lim (a 1) y (a' 0 y)). { replace (a' 0 y) with (1 - / (1 + y * y)); [apply a1_d|]. unfold a'. cbn [a INR]. field. lra. }
    split; [exact A|]. replace (a' 1 y) with (((INR 0 + 1) * (INR 0 + 1) * (2 * y) * a 0 y + (INR 0 + 1) * (INR 0 + 1) * (y * y) * / (1 + y * y)) - (2 * INR 0 + 3) * a' 0 y); [apply aSS_d; [apply a0_d|exact A]|].
    unfold a'. rewrite a_SS. cbn [a INR]. field. lra.
  - destruct (IH y) as [A B]. split; [exact B|].
    replace (a' (S (S n)) y) with (((INR (S n) + 1) * (INR (S n) + 1) * (2 * y) * a (S n) y + (INR (S n) + 1) * (INR (S n) + 1) * (y * y) * a' n y) - (2 * INR (S n) + 3) * a' (S n) y); [apply aSS_d; assumption|].
    unfold a'. rewrite (a_SS (S n)), (a_SS n), !S_INR. set (N := INR n). set (p := a n y). set (q := a (S n) y). field. lra.
Qed.
Lemma aS_d n y : derivable_pt_lim (a (S n)) y (a' n y). Proof. apply a_deriv. Qed.
Lemma a_0 n : a n 0 = 0.
Proof.
  assert (H : a n 0 = 0 /\ a (S n) 0 = 0); [|apply H]. induction n as [|n [A B]].
  - cbn [a]. rewrite atan_0. split; ring.
  - split; [exact B|]. rewrite a_SS, A, B. ring.
Qed.
Lemma atan_pos y : 0 < y -> 0 < atan y.
Proof. intros H. rewrite <- atan_0. apply atan_increasing, H. Qed.
(** [a (n+1)] divided by (1 + y^2)^((n+1)/2) *)
Definition damp (c y : R) : R := exp (- (c * ln (1 + y * y))).
Lemma damp_d c y : derivable_pt_lim (damp c) y (damp c y * - (c * (2 * y / (1 + y * y)))).
Proof.
  pose proof (one_sq y) as Y. apply (derivable_pt_lim_comp (fun y => - (c * ln (1 + y * y))) exp); [|apply derivable_pt_lim_exp].
  apply (derivable_pt_lim_opp (fun y => c * ln (1 + y * y))), (derivable_pt_lim_scal (fun y => ln (1 + y * y))).
  replace (2 * y / (1 + y * y)) with (/ (1 + y * y) * (1 * (2 * y))) by (field; lra). apply (derivable_pt_lim_comp (fun y => 1 + y * y) ln).
  - replace (1 * (2 * y)) with (0 + 1 * (2 * y)) by ring. apply (derivable_pt_lim_plus (fun _ => 1) (fun y => y * y)); [apply derivable_pt_lim_const|].
    replace (1 * (2 * y)) with (1 * y + y * 1) by ring. apply (derivable_pt_lim_mult id id y 1 1); apply derivable_pt_lim_id.
  - apply derivable_pt_lim_ln. exact Y.
Qed.
Lemma a_pos n : forall y, 0 < y -> 0 < a n y.
Proof.
  induction n as [|n IH]; intros y Hy; [apply atan_pos, Hy|]. set (c := (INR n + 1) / 2). set (f := fun y => a (S n) y * damp c y).
  set (f' := fun y => damp c y * ((INR n + 1) * (INR n + 1) * y * a n y / (1 + y * y))).
  assert (Df : forall z, derivable_pt_lim f z (f' z)).
  { intros z. pose proof (one_sq z). replace (f' z) with (a' n z * damp c z + a (S n) z * (damp c z * - (c * (2 * z / (1 + z * z))))) by (unfold f', a', c; field; lra).
    apply (derivable_pt_lim_mult (a (S n)) (damp c)); [apply aS_d|apply damp_d]. }
  destruct (MVT_cor2 f f' 0 y Hy (fun z _ => Df z)) as (z & E & Hz). unfold f at 2 in E. rewrite a_0, Rmult_0_l, !Rminus_0_r in E.
  assert (P : 0 < f' z). { unfold f'. apply Rmult_lt_0_compat; [apply exp_pos|]. apply Rdiv_lt_0_compat; [|apply one_sq]. pose proof (pos_INR n). apply Rmult_lt_0_compat; [|apply IH; lra]. apply Rmult_lt_0_compat; [|lra]. apply Rmult_lt_0_compat; lra. }
  assert (Q : 0 < f y) by (rewrite E; apply Rmult_lt_0_compat; lra). unfold f in Q. pose proof (exp_pos (- (c * ln (1 + y * y)))) as W. fold (damp c y) in W.
  destruct (Rlt_le_dec 0 (a (S n) y)) as [G|G]; [exact G|]. exfalso. assert (a (S n) y * damp c y <= 0); [|lra]. nra.
Qed.
(** [U m] stands for the part of the fraction from 2m+1 on. *)
Lemma fraction x : x <> 0 -> exists U : nat -> R, (forall m, U m = 2 * INR m + 1 + ((INR m + 1) * x) * ((INR m + 1) * x) / U (S m)) /\ (forall m, 2 * INR m + 1 <= U m) /\ atan x * U 0%nat = x.
Proof.
  intros X. set (y := Rabs x). assert (Y : 0 < y) by (apply Rabs_pos_lt, X).
  assert (YY : x * x = y * y) by (unfold y; rewrite <- Rabs_mult, Rabs_pos_eq; [reflexivity|apply Rle_0_sqr]).
  assert (A : atan x * y = x * atan y).
  { unfold y. destruct (Rle_dec 0 x); [rewrite Rabs_pos_eq by lra; ring|]. rewrite Rabs_left, atan_opp by lra. ring. }
  set (U := fun m => match m with O => y / a 0 y | S k => (INR k + 1) * (INR k + 1) * (y * y) * a k y / a (S k) y end).
  assert (Un : forall m, 0 < U m).
  { intros [|k]; unfold U; [apply Rdiv_lt_0_compat; [exact Y|apply a_pos, Y]|]. apply Rdiv_lt_0_compat; [|apply a_pos, Y]. pose proof (pos_INR k). apply Rmult_lt_0_compat; [|apply a_pos, Y]. apply Rmult_lt_0_compat; nra. }
  assert (R : forall m, U m = 2 * INR m + 1 + ((INR m + 1) * x) * ((INR m + 1) * x) / U (S m)).
  { intros m. replace ((INR m + 1) * x * ((INR m + 1) * x)) with ((INR m + 1) * (INR m + 1) * (y * y)) by (rewrite <- YY; ring).
    pose proof (a_pos m y Y) as P0. pose proof (a_pos (S m) y Y) as P1. pose proof (pos_INR m) as N0.
    assert (Q : (INR m + 1) * (INR m + 1) * (y * y) / U (S m) = a (S m) y / a m y) by (unfold U; field; repeat split; lra). rewrite Q.
    destruct m as [|k]; unfold U.
    - cbn [a INR] in *. field. lra.
    - pose proof (a_pos k y Y). rewrite a_SS, S_INR. field. lra. }
  exists U. split; [exact R|]. split.
  - intros m. rewrite R. specialize (Un (S m)). assert (0 <= (INR m + 1) * x * ((INR m + 1) * x) / U (S m)); [|lra]. apply Rmult_le_pos; [apply Rle_0_sqr|left; apply Rinv_0_lt_compat, Un].
  - unfold U. cbn [a]. pose proof (atan_pos y Y). apply Rmult_eq_reg_r with (atan y); [|lra]. rewrite <- A. field. lra.
Qed.
