(** * Real numbers: sine and cosine as sums, an enclosure of pi *)
From Coq Require Import ZArith QArith Qabs Qreals Reals Machin Lra Lia.
Local Open Scope R_scope.

(** ** Series given by the quotients of their terms *)
Section Terms.
Variable c : nat -> R.
Variables t0 xx : R.
Fixpoint term (n : nat) : R := match n with O => t0 | S n' => term n' * (- xx / c n') end.
Definition psum (n : nat) : R := sum_f_R0 term n.
Variable n1 : nat.
Hypothesis Hxx : Rabs xx <= 40.
Hypothesis Hc : forall n, (n1 <= n)%nat -> 80 <= c n.
Lemma term_half n : (n1 <= n)%nat -> Rabs (term (S n)) <= Rabs (term n) / 2.
Proof.
  intros H. cbn [term]. rewrite Rabs_mult. unfold Rdiv at 2. apply Rmult_le_compat_l; [apply Rabs_pos|]. specialize (Hc n H).
  unfold Rdiv. rewrite Rabs_mult, Rabs_Ropp, (Rabs_pos_eq (/ c n)); [|left; apply Rinv_0_lt_compat; lra].
  apply Rle_trans with (40 * / 80); [|lra]. apply Rmult_le_compat; [apply Rabs_pos|left; apply Rinv_0_lt_compat; lra|exact Hxx|apply Rinv_le_contravar; lra].
Qed.
Lemma term_pow n m : (n1 <= n)%nat -> Rabs (term (n + m)) <= Rabs (term n) * (/ 2) ^ m.
Proof.
  intros H. induction m as [|m IH]; [rewrite Nat.add_0_r; cbn; lra|]. replace (n + S m)%nat with (S (n + m)) by lia.
  apply Rle_trans with (Rabs (term (n + m)) / 2); [apply term_half; lia|]. cbn [pow]. lra.
Qed.
Lemma tail n m : (n1 <= n)%nat -> Rabs (psum (n + m) - psum n) <= Rabs (term n) * (1 - (/ 2) ^ m).
Proof.
  intros H. induction m as [|m IH]; [rewrite Nat.add_0_r; cbn; rewrite Rminus_diag_eq, Rabs_R0 by reflexivity; lra|].
  replace (n + S m)%nat with (S (n + m)) by lia. unfold psum in *. cbn [sum_f_R0].
  pose proof (term_half (n + m) ltac:(lia)) as A. pose proof (term_pow n m H) as B.
  apply Rabs_le_between in IH || idtac.
  apply Rle_trans with (Rabs (sum_f_R0 term (n + m) - sum_f_R0 term n) + Rabs (term (S (n + m)))).
  - replace (sum_f_R0 term (n + m) + term (S (n + m)) - sum_f_R0 term n) with ((sum_f_R0 term (n + m) - sum_f_R0 term n) + term (S (n + m))) by ring. apply Rabs_triang.
  - cbn [pow]. lra.
Qed.
Lemma limit_close l n : infinite_sum term l -> (n1 <= n)%nat -> Rabs (l - psum n) <= Rabs (term n).
Proof.
  intros Hl H. apply Rnot_lt_le. intros X. set (d := Rabs (l - psum n) - Rabs (term n)). assert (D : d > 0) by (unfold d; lra).
  destruct (Hl d D) as (N & HN). specialize (HN (n + N)%nat ltac:(lia)). pose proof (tail n N H) as T. unfold R_dist in HN. fold (psum (n + N)) in HN.
  assert (P : 0 < (/ 2) ^ N) by (apply pow_lt; lra). pose proof (Rabs_pos (term n)).
  assert (Rabs (l - psum n) <= Rabs (l - psum (n + N)) + Rabs (psum (n + N) - psum n)).
  { replace (l - psum n) with ((l - psum (n + N)) + (psum (n + N) - psum n)) by ring. apply Rabs_triang. }
  rewrite (Rabs_minus_sym l (psum (n + N))) in H1. assert (Rabs (term n) * (1 - (/ 2) ^ N) <= Rabs (term n)) by nra. unfold d in HN. lra.
Qed.
End Terms.

Definition sin_c (n : nat) : R := INR ((2 * n + 3) * (2 * n + 2)).
Definition cos_c (n : nat) : R := INR ((2 * n + 2) * (2 * n + 1)).
Lemma fact_pos n : INR (fact n) <> 0. Proof. apply INR_fact_neq_0. Qed.
Lemma sin_term x n : term sin_c x (x * x) n = x * (sin_n n * (x * x) ^ n).
Proof.
  induction n as [|n IH]; [cbn; unfold sin_n; cbn; field|]. cbn [term]. rewrite IH. unfold sin_n, sin_c.
  replace (fact (2 * S n + 1)) with ((2 * n + 3) * (2 * n + 2) * fact (2 * n + 1))%nat.
  - rewrite (mult_INR _ (fact _)). cbn [pow]. field. split; [apply fact_pos|apply not_0_INR; nia].
  - replace (2 * S n + 1)%nat with (S (S (2 * n + 1))) by lia. change (fact (S (S (2 * n + 1)))) with (S (S (2 * n + 1)) * (S (2 * n + 1) * fact (2 * n + 1)))%nat. generalize (fact (2 * n + 1)). intros f. ring.
Qed.
Lemma cos_term x n : term cos_c 1 (x * x) n = cos_n n * (x * x) ^ n.
Proof.
  induction n as [|n IH]; [cbn; unfold cos_n; cbn; field|]. cbn [term]. rewrite IH. unfold cos_n, cos_c.
  replace (fact (2 * S n)) with ((2 * n + 2) * (2 * n + 1) * fact (2 * n))%nat.
  - rewrite (mult_INR _ (fact _)). cbn [pow]. field. split; [apply fact_pos|apply not_0_INR; nia].
  - replace (2 * S n)%nat with (S (S (2 * n))) by lia. change (fact (S (S (2 * n)))) with (S (S (2 * n)) * (S (2 * n) * fact (2 * n)))%nat. generalize (fact (2 * n)). intros f. ring.
Qed.
Lemma infinite_scale f g x l : (forall n, g n = x * f n) -> infinite_sum f l -> infinite_sum g (x * l).
Proof.
  intros E H eps He. destruct (Req_dec x 0) as [->|Nx].
  - exists 0%nat. intros n _. unfold R_dist. assert (sum_f_R0 g n = 0) as ->; [|rewrite Rmult_0_l, Rminus_0_r, Rabs_R0; exact He].
    induction n as [|n IH]; cbn; rewrite ?IH, E; ring.
  - assert (P : 0 < Rabs x) by (apply Rabs_pos_lt; exact Nx). destruct (H (eps / Rabs x)) as (N & HN); [apply Rdiv_lt_0_compat; assumption|].
    exists N. intros n Hn. specialize (HN n Hn). unfold R_dist in *. assert (sum_f_R0 g n = x * sum_f_R0 f n) as ->.
    { clear HN Hn. induction n as [|n IH]; cbn; rewrite ?IH, E; ring. }
    rewrite <- Rmult_minus_distr_l, Rabs_mult. apply Rmult_lt_reg_r with (/ Rabs x); [apply Rinv_0_lt_compat; exact P|].
    replace (Rabs x * Rabs (sum_f_R0 f n - l) * / Rabs x) with (Rabs (sum_f_R0 f n - l)) by (field; lra). exact HN.
Qed.
Lemma sin_sum x : infinite_sum (term sin_c x (x * x)) (sin x).
Proof.
  unfold sin. destruct (exist_sin (Rsqr x)) as (a & Ha). unfold sin_in in Ha.
  apply (infinite_scale (fun i => sin_n i * (Rsqr x) ^ i)); [|exact Ha]. intros n. apply sin_term.
Qed.
Lemma infinite_ext f g l : (forall n, g n = f n) -> infinite_sum f l -> infinite_sum g l.
Proof. intros E H. replace l with (1 * l) by ring. apply (infinite_scale f); [|exact H]. intros n. rewrite E. ring. Qed.
Lemma cos_sum x : infinite_sum (term cos_c 1 (x * x)) (cos x).
Proof.
  unfold cos. destruct (exist_cos (Rsqr x)) as (a & Ha). unfold cos_in in Ha. apply (infinite_ext (fun i => cos_n i * (Rsqr x) ^ i)); [|exact Ha]. intros n. apply cos_term.
Qed.

(** ** The first hundred terms *)
Lemma sq_bound x : Rabs x <= 6.29 -> Rabs (x * x) <= 40.
Proof. intros H. rewrite Rabs_mult. pose proof (Rabs_pos x). nra. Qed.
Lemma sin_close x : Rabs x <= 6.29 -> Rabs (sin x - psum sin_c x (x * x) 99) <= / 10 ^ 24.
Proof.
  intros H. assert (C : forall n, (4 <= n)%nat -> 80 <= sin_c n).
  { intros n Hn. unfold sin_c. replace 80 with (INR 80) by (rewrite INR_IZR_INZ; reflexivity). apply le_INR. nia. }
  eapply Rle_trans; [apply (limit_close _ _ _ 4 (sq_bound x H) C); [apply sin_sum|lia]|].
  change 99%nat with (4 + 95)%nat. eapply Rle_trans; [apply (term_pow _ _ _ 4 (sq_bound x H) C 4 95); lia|].
  assert (T4 : Rabs (term sin_c x (x * x) 4) <= 100).
  { rewrite sin_term. unfold sin_n. rewrite !Rabs_mult. replace (Rabs ((x * x) ^ 4)) with (Rabs (x * x) ^ 4) by (rewrite RPow_abs; reflexivity).
    replace (Rabs ((-1) ^ 4 / INR (fact (2 * 4 + 1)))) with (/ 362880).
    - pose proof (sq_bound x H) as S. pose proof (Rabs_pos x). pose proof (Rabs_pos (x * x)). assert (Rabs (x * x) ^ 4 <= 40 ^ 4) by (apply pow_incr; split; assumption).
      apply Rle_trans with (6.29 * (/ 362880 * 40 ^ 4)); [|lra]. apply Rmult_le_compat; [assumption| |assumption|].
      + apply Rmult_le_pos; [lra|apply pow_le; assumption]. + apply Rmult_le_compat_l; [lra|assumption].
    - rewrite INR_IZR_INZ. replace (Z.of_nat (fact (2 * 4 + 1))) with 362880%Z by (vm_compute; reflexivity). rewrite Rabs_pos_eq; lra. }
  apply Rle_trans with (100 * (/ 2) ^ 95); [apply Rmult_le_compat_r; [apply pow_le; lra|exact T4]|]. lra.
Qed.
Lemma cos_close x : Rabs x <= 6.29 -> Rabs (cos x - psum cos_c 1 (x * x) 99) <= / 10 ^ 24.
Proof.
  intros H. assert (C : forall n, (4 <= n)%nat -> 80 <= cos_c n).
  { intros n Hn. unfold cos_c. replace 80 with (INR 80) by (rewrite INR_IZR_INZ; reflexivity). apply le_INR. nia. }
  eapply Rle_trans; [apply (limit_close _ _ _ 4 (sq_bound x H) C); [apply cos_sum|lia]|].
  change 99%nat with (4 + 95)%nat. eapply Rle_trans; [apply (term_pow _ _ _ 4 (sq_bound x H) C 4 95); lia|].
  assert (T4 : Rabs (term cos_c 1 (x * x) 4) <= 100).
  { rewrite cos_term. unfold cos_n. rewrite !Rabs_mult. replace (Rabs ((x * x) ^ 4)) with (Rabs (x * x) ^ 4) by (rewrite RPow_abs; reflexivity).
    replace (Rabs ((-1) ^ 4 / INR (fact (2 * 4)))) with (/ 40320).
    - pose proof (sq_bound x H) as S. pose proof (Rabs_pos (x * x)). assert (Rabs (x * x) ^ 4 <= 40 ^ 4) by (apply pow_incr; split; assumption). lra.
    - rewrite INR_IZR_INZ. replace (Z.of_nat (fact (2 * 4))) with 40320%Z by (vm_compute; reflexivity). rewrite Rabs_pos_eq; lra. }
  apply Rle_trans with (100 * (/ 2) ^ 95); [apply Rmult_le_compat_r; [apply pow_le; lra|exact T4]|]. lra.
Qed.

(** ** Lipschitz *)
Lemma sin_lip a b : Rabs (sin a - sin b) <= Rabs (a - b).
Proof.
  destruct (MVT_abs sin cos b a) as (c & E & _); [intros; apply derivable_pt_lim_sin|]. rewrite E. rewrite <- (Rmult_1_l (Rabs (a - b))) at 2. apply Rmult_le_compat_r; [apply Rabs_pos|].
  apply Rabs_le. pose proof (COS_bound c). lra.
Qed.
Lemma cos_lip a b : Rabs (cos a - cos b) <= Rabs (a - b).
Proof.
  destruct (MVT_abs cos (fun x => - sin x) b a) as (c & E & _); [intros; apply derivable_pt_lim_cos|]. rewrite E. rewrite <- (Rmult_1_l (Rabs (a - b))) at 2. apply Rmult_le_compat_r; [apply Rabs_pos|].
  rewrite Rabs_Ropp. apply Rabs_le. pose proof (SIN_bound c). lra.
Qed.
Lemma sin_period_Z x k : sin (x + 2 * IZR k * PI) = sin x.
Proof.
  destruct k as [|p|p]; [f_equal; ring| |].
  - rewrite <- (sin_period x (Pos.to_nat p)). rewrite INR_IZR_INZ, positive_nat_Z. reflexivity.
  - rewrite <- (sin_period (x + 2 * IZR (Z.neg p) * PI) (Pos.to_nat p)). f_equal. rewrite INR_IZR_INZ, positive_nat_Z. change (Z.neg p) with (- Z.pos p)%Z. rewrite opp_IZR. ring.
Qed.
Lemma cos_period_Z x k : cos (x + 2 * IZR k * PI) = cos x.
Proof.
  destruct k as [|p|p]; [f_equal; ring| |].
  - rewrite <- (cos_period x (Pos.to_nat p)). rewrite INR_IZR_INZ, positive_nat_Z. reflexivity.
  - rewrite <- (cos_period (x + 2 * IZR (Z.neg p) * PI) (Pos.to_nat p)). f_equal. rewrite INR_IZR_INZ, positive_nat_Z. change (Z.neg p) with (- Z.pos p)%Z. rewrite opp_IZR. ring.
Qed.

(** ** An enclosure of pi *)
Fixpoint qpow (q : Q) (n : nat) : Q := match n with O => 1%Q | S m => Qred (q * qpow q m) end.
Definition machin (n : nat) : Q :=
  Qred ((if Nat.even n then 1 else - (1))%Q * (2 * (qpow (1 # 3) (2 * n + 1) / inject_Z (Z.of_nat (2 * n + 1))) + qpow (1 # 7) (2 * n + 1) / inject_Z (Z.of_nat (2 * n + 1))))%Q.
Fixpoint qsum (f : nat -> Q) (n : nat) : Q := match n with O => f O | S m => Qred (qsum f m + f (S m)) end.
Lemma Q2R_red q : Q2R (Qred q) = Q2R q. Proof. apply Qeq_eqR, Qred_correct. Qed.
Lemma Q2R_Z z : Q2R (inject_Z z) = IZR z. Proof. unfold Q2R. cbn. field. Qed.
Lemma qpow_R q n : Q2R (qpow q n) = Q2R q ^ n.
Proof. induction n as [|n IH]; cbn [qpow pow]; [unfold Q2R; cbn; field|]. rewrite Q2R_red, Q2R_mult, IH. reflexivity. Qed.
Lemma sign_even n : (-1) ^ n = if Nat.even n then 1 else -1.
Proof. induction n as [|n IH]; [reflexivity|]. rewrite Nat.even_succ, <- Nat.negb_even. cbn [pow]. rewrite IH. destruct (Nat.even n); cbn; ring. Qed.
Lemma machin_R n : Q2R (machin n) = tg_alt PI_2_3_7_tg n.
Proof.
  unfold machin, tg_alt, PI_2_3_7_tg, Ratan_seq. rewrite Q2R_red, sign_even.
  assert (N : Q2R (inject_Z (Z.of_nat (2 * n + 1))) = INR (2 * n + 1)) by (rewrite Q2R_Z, <- INR_IZR_INZ; reflexivity).
  assert (Z0 : ~ (inject_Z (Z.of_nat (2 * n + 1)) == 0)%Q) by (change 0%Q with (inject_Z 0); rewrite inject_Z_injective; lia).
  rewrite Q2R_mult, Q2R_plus, Q2R_mult, !Q2R_div, !qpow_R, N by exact Z0.
  replace (Q2R (1 # 3)) with (/ 3) by (unfold Q2R; cbn; lra). replace (Q2R (1 # 7)) with (/ 7) by (unfold Q2R; cbn; lra). replace (Q2R 2) with 2 by (unfold Q2R; cbn; lra).
  destruct (Nat.even n); [replace (Q2R 1) with 1 by (unfold Q2R; cbn; lra)|replace (Q2R (- (1))) with (-1) by (unfold Q2R; cbn; lra)]; reflexivity.
Qed.
Lemma qsum_R f g n : (forall i, Q2R (f i) = g i) -> Q2R (qsum f n) = sum_f_R0 g n.
Proof. intros E. induction n as [|n IH]; cbn [qsum sum_f_R0]; [apply E|]. rewrite Q2R_red, Q2R_plus, IH, E. reflexivity. Qed.
Definition PI_hat : Q := 31415926535897932384626433833 # 10000000000000000000000000000.
Lemma PI_enclosed : Rabs (PI - Q2R PI_hat) <= / 10 ^ 28.
Proof.
  destruct (PI_2_3_7_ineq 16) as [A B]. rewrite <- (qsum_R machin) in A, B by apply machin_R.
  assert (L : Q2R ((PI_hat - (1 # 10000000000000000000000000000)) / 4) <= Q2R (qsum machin (S (2 * 16)))) by (apply Qle_Rle; vm_compute; discriminate).
  assert (U : Q2R (qsum machin (2 * 16)) <= Q2R ((PI_hat + (1 # 10000000000000000000000000000)) / 4)) by (apply Qle_Rle; vm_compute; discriminate).
  rewrite Q2R_div, Q2R_minus in L by discriminate. rewrite Q2R_div, Q2R_plus in U by discriminate.
  replace (Q2R 4) with 4 in * by (unfold Q2R; cbn; lra). replace (Q2R (1 # 10000000000000000000000000000)) with (/ 10 ^ 28) in * by (unfold Q2R; cbn; lra).
  apply Rabs_le. lra.
Qed.
