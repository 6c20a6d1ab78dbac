(** * Factorials of numbers that are not whole, over f64 (C85)

    The real functions are those of Coq's standard library. *)
From Coq Require Import List NArith ZArith QArith Qabs Qround Qreals Reals Bool Lia Lra String.
From Coq Require Import Floats.SpecFloat.
From Verif Require Import ModelBase ModelContext ModelText ModelDefault ModelFloat ModelGamma ModelNum ModelOps ModelStd
  SpecText SpecExpr SpecOps SpecDouble SpecFunctions SpecRound SpecGamma ProofText ProofDefault ProofBuild ProofCtx ProofDouble ProofDouble2 ProofRound ProofRound2 ProofRound3 PropDouble PropRound PropFactorial ProofGamma ProofReals ProofExp.
Import ListNotations.
Local Open Scope R_scope.

Lemma Q2R_abs q : Q2R (Qabs q) = Rabs (Q2R q).
Proof.
  destruct (Qlt_le_dec q 0) as [H|H].
  - rewrite Rabs_left1; [|replace 0 with (Q2R 0) by (unfold Q2R; cbn; lra); apply Qle_Rle, Qlt_le_weak, H]. rewrite <- Q2R_opp. apply Qeq_eqR. apply Qabs_neg, Qlt_le_weak, H.
  - rewrite Rabs_pos_eq; [|replace 0 with (Q2R 0) by (unfold Q2R; cbn; lra); apply Qle_Rle, H]. apply Qeq_eqR. apply Qabs_pos, H.
Qed.
Lemma Rabs_le_inv x y : Rabs x <= y -> - y <= x <= y.
Proof. intros H. pose proof (Rle_abs x). pose proof (Rle_abs (- x)). rewrite Rabs_Ropp in *. lra. Qed.
(** ** Relative errors *)
Definition near (e a b : R) : Prop := Rabs (a - b) <= e * b.
Lemma near_b e a b : near e a b <-> b - e * b <= a <= b + e * b.
Proof. unfold near. split; intros H; [apply Rabs_le_inv in H|apply Rabs_le]; lra. Qed.
Lemma near_mul e1 e2 a b c d : 0 <= e1 <= 1 -> 0 <= e2 <= 1 -> 0 < b -> 0 < d -> near e1 a b -> near e2 c d -> near (e1 + e2 + e1 * e2) (a * c) (b * d).
Proof.
  intros H1 H2 Hb Hd A C. unfold near in *. replace (a * c - b * d) with ((a - b) * (c - d) + b * (c - d) + (a - b) * d) by ring.
  assert (X : Rabs ((a - b) * (c - d)) <= e1 * b * (e2 * d)) by (rewrite Rabs_mult; apply Rmult_le_compat; try apply Rabs_pos; assumption).
  assert (Y : Rabs (b * (c - d)) <= b * (e2 * d)) by (rewrite Rabs_mult, (Rabs_pos_eq b) by lra; apply Rmult_le_compat_l; lra).
  assert (Z : Rabs ((a - b) * d) <= e1 * b * d) by (rewrite Rabs_mult, (Rabs_pos_eq d) by lra; apply Rmult_le_compat_r; lra).
  pose proof (Rabs_triang ((a - b) * (c - d) + b * (c - d)) ((a - b) * d)). pose proof (Rabs_triang ((a - b) * (c - d)) (b * (c - d))). lra.
Qed.
Lemma near_trans e1 e2 a b c : 0 <= e1 <= 1 -> 0 <= e2 <= 1 -> 0 < c -> near e1 a b -> near e2 b c -> near (e1 + e2 + e1 * e2) a c.
Proof.
  intros H1 H2 Hc A B. unfold near in *. replace (a - c) with ((a - b) + (b - c)) by ring. pose proof (Rabs_triang (a - b) (b - c)).
  assert (b <= c + e2 * c) by (apply Rabs_le_inv in B; lra). assert (e1 * b <= e1 * (c + e2 * c)) by (apply Rmult_le_compat_l; lra). lra.
Qed.
Lemma near_weak e e' a b : e <= e' -> 0 < b -> near e a b -> near e' a b.
Proof. intros H Hb A. unfold near in *. assert (e * b <= e' * b) by (apply Rmult_le_compat_r; lra). lra. Qed.

(** ** The real functions, at close arguments *)
Lemma ln_sub x : 0 < x -> ln x <= x - 1.
Proof. intros H. pose proof (exp_ineq1_le (ln x)) as E. rewrite exp_ln in E by exact H. lra. Qed.
Lemma ln_close a b : 5 <= a -> 5 <= b -> Rabs (ln a - ln b) <= Rabs (a - b).
Proof.
  assert (G : forall a b, 5 <= a -> 5 <= b -> ln a - ln b <= Rabs (a - b)).
  { clear a b. intros a b Ha Hb. assert (E : ln a - ln b = ln (a / b)) by (unfold Rdiv; rewrite ln_mult by (try apply Rinv_0_lt_compat; lra); rewrite ln_Rinv by lra; ring). rewrite E.
    assert (P : 0 < a / b) by (apply Rdiv_lt_0_compat; lra). pose proof (ln_sub _ P) as L. assert (Q : a / b - 1 = (a - b) / b) by (field; lra). rewrite Q in L.
    destruct (Rle_lt_dec a b) as [C|C].
    - rewrite Rabs_left1 by lra. assert ((a - b) / b <= 0); [|lra]. apply Rmult_le_reg_r with b; [lra|]. unfold Rdiv. rewrite Rmult_assoc, Rinv_l by lra. lra.
    - rewrite Rabs_pos_eq by lra. assert ((a - b) / b <= a - b); [|lra]. apply Rmult_le_reg_r with b; [lra|]. unfold Rdiv. rewrite Rmult_assoc, Rinv_l by lra. nra. }
  intros Ha Hb. apply Rabs_le. pose proof (G a b Ha Hb). pose proof (G b a Hb Ha) as K. rewrite Rabs_minus_sym in K. lra.
Qed.
Lemma exp_close a b e : 0 <= e <= / 4 -> Rabs (a - b) <= e -> near (2 * e) (exp a) (exp b).
Proof.
  intros He H. apply Rabs_le_inv in H. assert (E : exp a = exp (a - b) * exp b) by (rewrite <- exp_plus; f_equal; ring). set (d := a - b) in *. pose proof (exp_pos b) as P. pose proof (exp_pos d) as Pd.
  pose proof (exp_ineq1_le d) as L. pose proof (exp_ineq1_le (- d)) as U. rewrite exp_Ropp in U.
  assert (U2 : exp d <= 1 + 2 * e). { assert (K : (1 - d) * exp d <= 1). { apply Rmult_le_compat_r with (r := exp d) in U; [|lra]. rewrite Rinv_l in U by lra. lra. } clear - K H He Pd. nra. }
  apply near_b. rewrite E. clear E. split; [assert ((1 - 2 * e) * exp b <= exp d * exp b) by (apply Rmult_le_compat_r; lra); lra|assert (exp d * exp b <= (1 + 2 * e) * exp b) by (apply Rmult_le_compat_r; lra); lra].
Qed.
Lemma power_close a a' b b' : 5 <= a <= 7 -> 5 <= a' <= 7 -> 0 <= b <= 2 -> 0 <= b' <= 2 -> Rabs (a' - a) <= 4 / 10 ^ 15 -> Rabs (b' - b) <= / 10 ^ 15 ->
  near (3 / 10 ^ 14) (Rpower a' b') (Rpower a b).
Proof.
  intros Ha Ha' Hb Hb' A B. unfold Rpower. apply near_weak with (2 * (15 / 10 ^ 15)); [lra|apply exp_pos|]. apply exp_close; [lra|].
  replace (b' * ln a' - b * ln a) with ((b' - b) * ln a' + b * (ln a' - ln a)) by ring. pose proof (ln_close a' a ltac:(lra) ltac:(lra)) as L. pose proof (ln_sub a' ltac:(lra)) as L6.
  assert (L0 : 0 <= ln a') by (rewrite <- ln_1; apply Rlt_le, ln_increasing; lra).
  pose proof (Rabs_triang ((b' - b) * ln a') (b * (ln a' - ln a))) as T. rewrite !Rabs_mult, (Rabs_pos_eq b), (Rabs_pos_eq (ln a')) in T by lra.
  assert (Rabs (b' - b) * ln a' <= / 10 ^ 15 * 6) by (apply Rmult_le_compat; try apply Rabs_pos; lra). assert (b * Rabs (ln a' - ln a) <= 2 * (4 / 10 ^ 15)) by (apply Rmult_le_compat; try apply Rabs_pos; lra). lra.
Qed.
Lemma two_pi : 2.5 <= sqrt (2 * PI) <= 2.52.
Proof.
  pose proof PI_enclosed as H. apply Rabs_le_inv in H. assert (E : Q2R PI_hat = 31415926535897932384626433833 / 10 ^ 28) by (unfold PI_hat, Q2R; cbn [Qnum Qden]; lra). rewrite E in H.
  split; [rewrite <- (sqrt_square 2.5) by lra|rewrite <- (sqrt_square 2.52) by lra]; apply sqrt_le_1_alt; lra.
Qed.
(** The first factor is a constant. *)
Lemma root_constant : exists k, stands_for (f_sqrt (f_mul (f_of_Z 2) f_PI)) k /\ near (/ 10 ^ 15) (Q2R k) (sqrt (2 * PI)).
Proof.
  set (k := dyadic 5644425081792261 (-51)). exists k. split; [vm_compute; repeat split; try discriminate; right; discriminate|].
  assert (E : Q2R k = 5644425081792261 / 2251799813685248) by (unfold k, Q2R; cbn; lra). rewrite E. clear E k.
  pose proof PI_enclosed as H. apply Rabs_le_inv in H. assert (E : Q2R PI_hat = 31415926535897932384626433833 / 10 ^ 28) by (unfold PI_hat, Q2R; cbn [Qnum Qden]; lra). rewrite E in H. clear E.
  pose proof two_pi as T. pose proof (sqrt_sqrt (2 * PI) ltac:(lra)) as S. set (r := sqrt (2 * PI)) in *. clearbody r. apply near_b.
  assert (r * r - 62831853071795864769252867 / 10 ^ 25 <= 1 / 10 ^ 24 /\ - 1 / 10 ^ 24 <= r * r - 62831853071795864769252867 / 10 ^ 25) as [A B] by lra. clear H S. split; nra.
Qed.

Lemma Q2R_in p q r : (p <= q <= r)%Q -> Q2R p <= Q2R q <= Q2R r. Proof. intros [A B]. split; apply Qle_Rle; assumption. Qed.
Lemma Q2R_close p q e : (Qabs (p - q) <= e)%Q -> Rabs (Q2R p - Q2R q) <= Q2R e.
Proof. intros H. apply Qle_Rle in H. rewrite Q2R_abs, Q2R_minus in H. exact H. Qed.
(** One rounding. *)
Lemma round_near q z : rounds q z -> / 10 ^ 9 <= Q2R q <= 10 ^ 9 -> exists p, stands_for z p /\ near (2 / 10 ^ 16) (Q2R p) (Q2R q).
Proof.
  intros R [L U]. assert (L' : (1 # 1000000000 <= q)%Q) by (apply Rle_Qle; eapply Rle_trans; [|exact L]; unfold Q2R; cbn; lra).
  assert (U' : (q <= 1000000000)%Q) by (apply Rle_Qle; eapply Rle_trans; [exact U|]; unfold Q2R; cbn; lra).
  assert (P : (0 <= q)%Q) by (eapply Qle_trans; [|exact L']; discriminate).
  assert (TH : (Qabs q < overflow_threshold)%Q) by (rewrite Qabs_pos by exact P; eapply Qle_lt_trans; [exact U'|reflexivity]).
  destruct (proj1 R TH) as (p & S & _). exists p. split; [exact S|]. destruct (error_bound _ _ _ R S TH) as [B|[B _]].
  - apply Q2R_close in B. rewrite (Qeq_eqR _ _ (Qmult_comp _ _ (Qabs_pos q P) _ _ (Qeq_refl (2 ^ (-53))%Q))), Q2R_mult in B. unfold near. eapply Rle_trans; [exact B|]. rewrite Rmult_comm. apply Rmult_le_compat_r; [lra|]. unfold Q2R. cbn. lra.
  - exfalso. rewrite Qabs_pos in B by exact P. assert (X : (2 ^ (-1022) < 1 # 1000000000)%Q) by reflexivity. apply (Qlt_irrefl q). eapply Qlt_trans; [exact B|]. eapply Qlt_le_trans; [exact X|exact L'].
Qed.
(** The argument of the formula: x - 1, t, x - 1/2. *)
Lemma gamma_arguments L q s : (0 < q < 1)%Q -> rounds (q + 1) s -> gamma L s = lanczos L s /\ exists Y, stands_for (f_sub s f_one) Y /\ (0 <= Y <= 1)%Q /\ (Qabs (Y - q) <= 2 ^ (-52))%Q.
Proof.
  intros [Q0 Q1] R. destruct (C74_gamma_range q s (conj Q0 Q1) R) as (p & P & [P1 P2]). split.
  - unfold gamma. assert (H : f_lt s f_half = false).
    { unfold f_lt, SFltb. change (SFcompare s f_half) with (f_cmp s f_half). rewrite (cmp_exact _ _ p (1 # 2) P) by (vm_compute; repeat split; try discriminate; right; discriminate).
      assert (C : (p ?= 1 # 2)%Q = Gt) by (apply (proj1 (Qgt_alt _ _)); eapply Qlt_le_trans; [|exact P1]; reflexivity). rewrite C. reflexivity. }
    rewrite H. reflexivity.
  - exists (p - 1)%Q. split; [|split].
    + apply sub_exact; [exact P|exact one_stands|]. apply minus_one_double; [apply (stands_double _ _ P)|exact P1|]. eapply Qle_trans; [exact P2|discriminate].
    + split; [setoid_replace 0%Q with (1 - 1)%Q by reflexivity|setoid_replace 1%Q with (2 - 1)%Q at 2 by reflexivity]; apply Qplus_le_l with 1%Q; ring_simplify; [exact P1|eapply Qle_trans; [exact P2|discriminate]].
    + destruct (near_abs 51 _ _ R ltac:(lia)) as (p' & P' & B). { change (2 ^ (52 - 51))%Q with 2%Q. rewrite Qabs_pos; [apply Qlt_le_weak; setoid_replace 2%Q with (1 + 1)%Q by reflexivity; apply Qplus_lt_l with (z := (-1)%Q); ring_simplify; exact Q1|]. apply Qlt_le_weak. eapply Qlt_trans; [exact Q0|]. apply Qplus_lt_l with (z := (- q)%Q). ring_simplify. reflexivity. }
      rewrite <- (stands_unique _ _ _ P P') in B. setoid_replace (p - 1 - q)%Q with (p - (q + 1))%Q by ring. exact B.
Qed.

(** ** The value of the formula *)
Lemma Rpower_pow_exp n x : exp x ^ n = exp (INR n * x).
Proof. induction n as [|n IH]; [rewrite Rmult_0_l, exp_0; reflexivity|]. rewrite S_INR, Rmult_plus_distr_r, exp_plus, <- IH, Rmult_1_l. cbn [pow]. ring. Qed.
Definition t_of (q : Q) : R := Q2R q + 47421875 / 10000000 + / 2.
Lemma unit_R q : (0 < q < 1)%Q -> 0 < Q2R q < 1.
Proof. intros [A B]. apply Qlt_Rlt in A, B. unfold Q2R in A at 1. unfold Q2R in B at 2. cbn in A, B. lra. Qed.
Lemma parts_range q : (0 < q < 1)%Q -> 5 <= t_of q <= 6.25 /\ 1 <= Rpower (t_of q) (Q2R q + / 2) <= 16 /\ / 2187 <= exp (- t_of q) <= / 97 /\ 12 <= Q2R (lanczos_factor q) <= 40.
Proof.
  intros Hq. pose proof (unit_R q Hq) as U. pose proof (factor_range q Hq) as F. apply Q2R_in in F. replace (Q2R 12) with 12 in F by (unfold Q2R; cbn; lra). replace (Q2R 40) with 40 in F by (unfold Q2R; cbn; lra).
  assert (T : 5 <= t_of q <= 6.25) by (unfold t_of; lra). split; [exact T|]. split; [|split; [|lra]].
  - split.
    + rewrite <- (Rpower_O (t_of q)) by lra. apply Rle_Rpower; lra.
    + apply Rle_trans with (Rpower 6.25 (Q2R q + / 2)); [apply Rle_Rpower_l; lra|]. apply Rle_trans with (Rpower 6.25 (/ 2 * INR 3)); [apply Rle_Rpower; cbn; lra|].
      rewrite <- Rpower_mult, Rpower_sqrt by lra. replace 6.25 with (2.5 * 2.5) by lra. rewrite sqrt_square by lra. rewrite Rpower_pow by lra. cbn. lra.
  - split.
    + rewrite exp_Ropp. apply Rinv_le_contravar; [apply exp_pos|]. apply Rle_trans with (exp (INR 7)); [apply Rlt_le, exp_increasing; cbn; lra|].
      rewrite <- (Rmult_1_r (INR 7)). rewrite <- Rpower_pow_exp. pose proof exp_le_3 as E3. pose proof (exp_pos 1). apply Rle_trans with (3 ^ 7); [apply pow_incr; lra|lra].
    + rewrite exp_Ropp. apply Rinv_le_contravar; [lra|]. apply Rle_trans with (exp (INR 5)); [|destruct (Req_dec (INR 5) (t_of q)) as [->|N]; [lra|apply Rlt_le, exp_increasing; cbn in *; lra]].
      rewrite <- (Rmult_1_r (INR 5)). rewrite <- Rpower_pow_exp. pose proof E_enclosed as E. apply Rabs_le_inv in E. assert (EV : 2.6 <= Q2R E_hat) by (unfold E_hat, Q2R; cbn [Qnum Qden]; lra). apply Rle_trans with (2.5 ^ 5); [lra|apply pow_incr; lra].
Qed.
Lemma near_eq e a b b' : b = b' -> near e a b -> near e a b'. Proof. intros ->. exact (fun x => x). Qed.
Lemma near_range e a b lo hi : 0 <= e <= / 2 -> 0 < b -> near e a b -> lo <= b <= hi -> / 2 * lo <= a <= 2 * hi.
Proof. intros He Hb H R. apply near_b in H. assert (e * b <= / 2 * b) by (apply Rmult_le_compat_r; lra). lra. Qed.
Ltac qnum := unfold Q2R; cbn [Qnum Qden]; lra.
Lemma formula_parts q : lanczos_formula q = sqrt (2 * PI) * Rpower (t_of q) (Q2R q + / 2) * exp (- t_of q) * Q2R (lanczos_factor q).
Proof. reflexivity. Qed.
Lemma product3 a b lo1 hi1 lo2 hi2 : 0 <= lo1 -> 0 <= lo2 -> lo1 <= a <= hi1 -> lo2 <= b <= hi2 -> lo1 * lo2 <= a * b <= hi1 * hi2.
Proof. intros A B [C D] [E F]. split; apply Rmult_le_compat; lra. Qed.
Lemma gamma_close L q s : accurate_power L -> accurate_exp L -> (0 < q < 1)%Q -> rounds (q + 1) s ->
  exists p, stands_for (gamma L s) p /\ near (6 / 10 ^ 13) (Q2R p) (lanczos_formula q).
Proof.
  intros HP HE Hq R. destruct (gamma_arguments L q s Hq R) as (-> & Y & SY & Y1 & Y2). pose proof (unit_R q Hq) as U. destruct (parts_range q Hq) as (TR & PR & ER & FR).
  unfold lanczos. cbv zeta. set (x := f_sub s f_one) in *. destruct (t_error q Y x Hq Y2 Y1 SY) as ((A & A1 & A2) & (B & B1 & B2)). destruct (factor_error q Y x Hq Y2 Y1 SY) as (F & F1 & F2).
  set (ft := f_add (f_add x lanczos_g) f_half) in *. set (fb := f_add x f_half) in *. set (ff := lanczos_sum x 1 lanczos_p lanczos_p0) in *. clearbody ft fb ff.
  apply Q2R_close in A2, B2, F2. rewrite !Q2R_plus in A2. rewrite !Q2R_plus in B2.
  replace (Q2R (47421875 # 10000000)) with (47421875 / 10000000) in A2 by qnum. replace (Q2R (1 # 2)) with (/ 2) in A2, B2 by qnum. fold (t_of q) in A2.
  replace (Q2R (4 # 1000000000000000)) with (4 / 10 ^ 15) in A2 by qnum. replace (Q2R (1 # 1000000000000000)) with (/ 10 ^ 15) in B2 by qnum. replace (Q2R (5 # 1000000000000)) with (5 / 10 ^ 12) in F2 by qnum.
  pose proof (Rabs_le_inv _ _ A2) as A3. pose proof (Rabs_le_inv _ _ B2) as B3. pose proof (Rabs_le_inv _ _ F2) as F3.
  assert (AR : 4.9 <= Q2R A <= 7) by lra. assert (A5 : 5 <= Q2R A <= 7) by (unfold t_of in A3; lra). assert (BR : 0 <= Q2R B <= 2) by lra.
  assert (AQ : (1 <= A <= 16)%Q) by (split; apply Rle_Qle; [apply Rle_trans with 5; [qnum|lra]|apply Rle_trans with 7; [lra|qnum]]).
  assert (BQ : (0 <= B <= 2)%Q) by (split; apply Rle_Qle; [apply Rle_trans with 0; [qnum|lra]|apply Rle_trans with 2; [lra|qnum]]).
  assert (NQ : (-16 <= - A <= 0)%Q) by (split; apply Rle_Qle; rewrite Q2R_opp; [apply Rle_trans with (-7); [qnum|lra]|apply Rle_trans with 0; [lra|qnum]]).
  destruct (HP ft fb A B A1 B1 AQ BQ) as (pw & PW1 & PW2). destruct (HE (f_neg ft) (- A)%Q (neg_exact _ _ A1) NQ) as (pe & PE1 & PE2). rewrite Q2R_opp in PE2.
  set (vt := powf L ft fb) in *. set (ve := method1 L (lit "exp") (f_neg ft)) in *. clearbody vt ve.
  assert (N1 : near (4 / 10 ^ 14) (Q2R pw) (Rpower (t_of q) (Q2R q + / 2))).
  { apply near_weak with (/ 2 ^ 50 + 3 / 10 ^ 14 + / 2 ^ 50 * (3 / 10 ^ 14)); [lra|lra|]. apply near_trans with (Rpower (Q2R A) (Q2R B)); [lra|lra|lra|exact PW2|]. apply power_close; lra. }
  assert (N2 : near (1 / 10 ^ 14) (Q2R pe) (exp (- t_of q))).
  { apply near_weak with (/ 2 ^ 50 + 2 * (4 / 10 ^ 15) + / 2 ^ 50 * (2 * (4 / 10 ^ 15))); [lra|lra|]. apply near_trans with (exp (- Q2R A)); [lra|lra|lra|exact PE2|]. apply exp_close; [lra|]. replace (- Q2R A - - t_of q) with (- (Q2R A - t_of q)) by ring. rewrite Rabs_Ropp. exact A2. }
  assert (N3 : near (5 / 10 ^ 13) (Q2R F) (Q2R (lanczos_factor q))).
  { unfold near. eapply Rle_trans; [exact F2|]. assert (5 / 10 ^ 13 * 12 <= 5 / 10 ^ 13 * Q2R (lanczos_factor q)) by (apply Rmult_le_compat_l; lra). lra. }
  destruct root_constant as (k & K1 & K2). pose proof two_pi as KR. rewrite formula_parts. set (vk := f_sqrt (f_mul (f_of_Z 2) f_PI)) in *. clearbody vk.
  set (rk := sqrt (2 * PI)) in *. set (rp := Rpower (t_of q) (Q2R q + / 2)) in *. set (re := exp (- t_of q)) in *. set (rf := Q2R (lanczos_factor q)) in *. clearbody rk rp re rf.
  clear HP HE R Hq Y SY Y1 Y2 U TR x A A1 A2 B A3 B1 B2 F2 B3 F3 AR A5 BR AQ BQ NQ PW2 PE2 ft fb s.
  (* the product *)
  assert (M1 : near (5 / 10 ^ 14) (Q2R (k * pw)) (rk * rp)). { rewrite Q2R_mult. apply near_weak with (/ 10 ^ 15 + 4 / 10 ^ 14 + / 10 ^ 15 * (4 / 10 ^ 14)); [lra|apply Rmult_lt_0_compat; lra|]. apply near_mul; [lra|lra|lra|lra|exact K2|exact N1]. }
  pose proof (product3 rk rp 2 3 1 16 ltac:(lra) ltac:(lra) ltac:(lra) PR) as R1. set (r1 := rk * rp) in *. clearbody r1.
  pose proof (near_range (5 / 10 ^ 14) _ r1 2 48 ltac:(lra) ltac:(lra) M1 ltac:(lra)) as G1.
  destruct (round_near _ _ (mul_rounds _ _ _ _ K1 PW1) ltac:(lra)) as (m1 & S1 & E1).
  assert (M1' : near (6 / 10 ^ 14) (Q2R m1) r1). { apply near_weak with (2 / 10 ^ 16 + 5 / 10 ^ 14 + 2 / 10 ^ 16 * (5 / 10 ^ 14)); [lra|lra|]. apply near_trans with (Q2R (k * pw)); [lra|lra|lra|exact E1|exact M1]. }
  assert (M2 : near (8 / 10 ^ 14) (Q2R (m1 * pe)) (r1 * re)). { rewrite Q2R_mult. apply near_weak with (6 / 10 ^ 14 + 1 / 10 ^ 14 + 6 / 10 ^ 14 * (1 / 10 ^ 14)); [lra|apply Rmult_lt_0_compat; lra|]. apply near_mul; [lra|lra|lra|lra|exact M1'|exact N2]. }
  pose proof (product3 r1 re 2 48 (/ 2187) (/ 97) ltac:(lra) ltac:(lra) ltac:(lra) ER) as R2. set (r2 := r1 * re) in *. clearbody r2.
  pose proof (near_range (8 / 10 ^ 14) _ r2 (2 * / 2187) (48 * / 97) ltac:(lra) ltac:(lra) M2 ltac:(lra)) as G2.
  destruct (round_near _ _ (mul_rounds _ _ _ _ S1 PE1) ltac:(lra)) as (m2 & S2 & E2).
  assert (M2' : near (9 / 10 ^ 14) (Q2R m2) r2). { apply near_weak with (2 / 10 ^ 16 + 8 / 10 ^ 14 + 2 / 10 ^ 16 * (8 / 10 ^ 14)); [lra|lra|]. apply near_trans with (Q2R (m1 * pe)); [lra|lra|lra|exact E2|exact M2]. }
  assert (M3 : near (595 / 10 ^ 15) (Q2R (m2 * F)) (r2 * rf)). { rewrite Q2R_mult. apply near_weak with (9 / 10 ^ 14 + 5 / 10 ^ 13 + 9 / 10 ^ 14 * (5 / 10 ^ 13)); [lra|apply Rmult_lt_0_compat; lra|]. apply near_mul; [lra|lra|lra|lra|exact M2'|exact N3]. }
  pose proof (product3 r2 rf (2 * / 2187) (48 * / 97) 12 40 ltac:(lra) ltac:(lra) ltac:(lra) FR) as R3. set (r3 := r2 * rf) in *. clearbody r3.
  pose proof (near_range (595 / 10 ^ 15) _ r3 (2 * / 2187 * 12) (48 * / 97 * 40) ltac:(lra) ltac:(lra) M3 ltac:(lra)) as G3.
  destruct (round_near _ _ (mul_rounds _ _ _ _ S2 F1) ltac:(lra)) as (m3 & S3 & E3).
  exists m3. split; [exact S3|]. apply near_weak with (2 / 10 ^ 16 + 595 / 10 ^ 15 + 2 / 10 ^ 16 * (595 / 10 ^ 15)); [lra|lra|]. apply near_trans with (Q2R (m2 * F)); [lra|lra|lra|exact E3|exact M3].
Qed.
Lemma formula_range q : (0 < q < 1)%Q -> / 100 <= lanczos_formula q <= 20.
Proof.
  intros Hq. destruct (parts_range q Hq) as (TR & PR & ER & FR). rewrite formula_parts. pose proof two_pi as KR.
  pose proof (product3 _ _ 2.5 2.52 1 16 ltac:(lra) ltac:(lra) KR PR) as R1. pose proof (product3 _ _ (2.5 * 1) (2.52 * 16) (/ 2187) (/ 97) ltac:(lra) ltac:(lra) R1 ER) as R2. pose proof (product3 _ _ (2.5 * 1 * / 2187) (2.52 * 16 * / 97) 12 40 ltac:(lra) ltac:(lra) R2 FR) as R3. lra.
Qed.

(** ** Below 1 *)
Theorem C85_below_one : forall W fuel L (rnd : W -> f64 * W) docs E dbg cf d, f64_context fuel L rnd docs E dbg cf d -> accurate_power L -> accurate_exp L ->
  forall x q w, stands_for x q -> (0 < q < 1)%Q ->
  exists z p, apply_unary (to_ctx E d) (lit "!") x w = (Ok z, w) /\ stands_for z p /\ Rabs (Q2R p - lanczos_formula q) <= / 10 ^ 12 * lanczos_formula q.
Proof.
  intros W fuel L rnd docs E dbg cf d Hd HP HE x q w Hx Hq. destruct (C74_fraction_below_one W fuel L rnd docs E dbg cf d Hd x q w Hx Hq) as (s & R & A).
  destruct (gamma_close L q s HP HE Hq R) as (p & P & N). exists (gamma L s), p. split; [exact A|]. split; [exact P|]. pose proof (formula_range q Hq). apply (near_weak _ (/ 10 ^ 12)) in N; [exact N|lra|lra].
Qed.
Print Assumptions C85_below_one.

(** ** Above 1 *)
Lemma forall2_nth {A B} (R : A -> B -> Prop) (da : A) (db : B) : forall xs ys, List.length xs = List.length ys -> (forall i, (i < List.length xs)%nat -> R (nth i xs da) (nth i ys db)) -> Forall2 R xs ys.
Proof. induction xs as [|x xs IH]; intros [|y ys] L H; try discriminate; constructor; [exact (H 0%nat ltac:(cbn; lia))|]. apply IH; [cbn in L; lia|]. intros i Hi. exact (H (Datatypes.S i) ltac:(cbn; lia)). Qed.
Lemma chain_near x q k fs p : stands_for x q -> (1 <= k <= 169)%nat -> (inject_Z (Z.of_nat k) < q < inject_Z (Z.of_nat k) + 1)%Q -> List.length fs = pred k ->
  (forall i, (i < pred k)%nat -> stands_for (nth i fs f_zero) (q - inject_Z (Z.of_nat (S i)))) -> in_steps ieee_product x fs p ->
  exists P, stands_for p P /\ near (4 / 10 ^ 14) (Q2R P) (Q2R (falling q k)) /\ 1 <= Q2R (falling q k) <= IZR (SpecOps.fact 170).
Proof.
  intros Hx K [K2 K3] HL HF S. destruct k as [|k]; [lia|]. cbn [pred] in *.
  assert (KQ : (inject_Z (Z.of_nat k) <= q - 1)%Q). { rewrite Nat2Z.inj_succ in K2. unfold Z.succ in K2. rewrite inject_Z_plus in K2. apply Qplus_le_l with 1%Q. ring_simplify. apply Qlt_le_weak. exact K2. }
  destruct (falling_list (q - 1) k (q - 1) (Qeq_refl _) KQ) as (Fs & L1 & L2 & L3 & L4).
  assert (F2 : Forall2 stands_for fs Fs).
  { apply (forall2_nth (A := f64) stands_for f_zero 0%Q); [rewrite HL, L1; reflexivity|]. rewrite HL. intros i Hi. apply (stands_comp _ (q - inject_Z (Z.of_nat (Datatypes.S i)))); [|apply HF; exact Hi]. rewrite (L2 i Hi), Nat2Z.inj_succ. unfold Z.succ. rewrite inject_Z_plus. change (inject_Z 1) with 1%Q. ring. }
  assert (Q1 : (1 <= q)%Q). { apply Qle_trans with (inject_Z (Z.of_nat (Datatypes.S k))); [change 1%Q with (inject_Z 1); rewrite <- Zle_Qle; lia|apply Qlt_le_weak; exact K2]. }
  assert (HN : (Z.of_nat (@List.length f64 fs) <= 2 ^ 52)%Z) by (rewrite HL; lia).
  pose proof (chain_error fs Fs x q p F2 L4 Hx Q1 S HN) as C. cbv zeta in C.
  destruct (falling_bound (Datatypes.S k) q (Qlt_le_weak _ _ K2) (Qlt_le_weak _ _ K3)) as [B1 B2].
  assert (FB : (inject_Z (SpecOps.fact (Datatypes.S (Datatypes.S k))) <= inject_Z (SpecOps.fact 170))%Q) by (rewrite <- Zle_Qle; apply fact_grows; lia).
  assert (RB : 1 <= Q2R (falling q (Datatypes.S k)) <= IZR (SpecOps.fact 170)). { apply Qle_Rle in B1. pose proof (Qle_Rle _ _ (Qle_trans _ _ _ B2 FB)) as B3. rewrite Q2R_Z in B3. split; [|exact B3]. eapply Rle_trans; [|exact B1]. qnum. }
  change (@List.length spec_float fs) with (@List.length f64 fs) in C. rewrite HL in C.
  assert (NU : (2 * inject_Z (Z.of_nat k) * u <= 4 # 100000000000000)%Q).
  { apply Qle_trans with (2 * 168 * u)%Q; [|vm_compute; discriminate]. apply Qmult_le_compat_r; [|vm_compute; discriminate]. rewrite !(Qmult_comm 2). apply Qmult_le_compat_r; [|discriminate]. change 168%Q with (inject_Z 168). rewrite <- Zle_Qle. lia. }
  assert (NU0 : (0 <= inject_Z (Z.of_nat k) * u)%Q) by (apply Qmult_le_0_compat; [change 0%Q with (inject_Z 0); rewrite <- Zle_Qle; lia|vm_compute; discriminate]).
  set (e := (inject_Z (Z.of_nat k) * u)%Q) in *. assert (E2 : (2 * inject_Z (Z.of_nat k) * u == 2 * e)%Q) by (unfold e; ring). rewrite E2 in NU. assert (TT : (q * product Fs == falling q (Datatypes.S k))%Q) by (rewrite L3; reflexivity).
  apply Qle_Rle in NU, NU0. rewrite Q2R_mult in NU. replace (Q2R 2) with 2 in NU by qnum. replace (Q2R 0) with 0 in NU0 by qnum. replace (Q2R (4 # 100000000000000)) with (4 / 10 ^ 14) in NU by qnum.
  destruct C as [[_ C]|(P & P1 & P2 & P3)].
  - rewrite E2, TT in C. clearbody e. exfalso. assert (X : (overflow_threshold <= inject_Z (SpecOps.fact 170) * 2)%Q).
    { eapply Qle_trans; [exact C|]. apply Rle_Qle. rewrite !Q2R_mult, !Q2R_plus, Q2R_mult, Q2R_Z. replace (Q2R 2) with 2 by qnum. replace (Q2R 1) with 1 by qnum. clear - RB NU NU0. set (big := IZR (SpecOps.fact 170)) in *. clearbody big. set (T := Q2R (falling _ _)) in *. set (r := Q2R e) in *. clearbody T r. apply Rmult_le_compat; lra. }
    revert X. apply Qlt_not_le. vm_compute. reflexivity.
  - rewrite TT in P2, P3. rewrite E2 in P3. clearbody e. exists P. split; [exact P1|]. split; [|exact RB]. apply Qle_Rle in P2, P3. rewrite Q2R_mult, Q2R_minus in P2. rewrite Q2R_mult, Q2R_plus, Q2R_mult in P3. replace (Q2R 2) with 2 in P3 by qnum. replace (Q2R 1) with 1 in P2, P3 by qnum. apply near_b.
    set (T := Q2R (falling q (Datatypes.S k))) in *. set (r := Q2R e) in *. clearbody T r. assert (T * (2 * r) <= T * (4 / 10 ^ 14)) by (apply Rmult_le_compat_l; lra). assert (0 <= T * r) by (apply Rmult_le_pos; lra). lra.
Qed.
Theorem C85_above_one : forall W fuel L (rnd : W -> f64 * W) docs E dbg cf d, f64_context fuel L rnd docs E dbg cf d -> accurate_power L -> accurate_exp L ->
  forall x q k w, stands_for x q -> (1 <= k <= 169)%nat -> (inject_Z (Z.of_nat k) < q < inject_Z (Z.of_nat k) + 1)%Q -> (k <= fuel)%nat ->
  exists z p, apply_unary (to_ctx E d) (lit "!") x w = (Ok z, w) /\ stands_for z p /\
    let exact := Q2R (falling q k) * lanczos_formula (q - inject_Z (Z.of_nat k)) in Rabs (Q2R p - exact) <= / 10 ^ 12 * exact.
Proof.
  intros W fuel L rnd docs E dbg cf d Hd HP HE x q k w Hx K HK Hf.
  assert (Q2 : (q <= inject_Z (2 ^ 53))%Q). { destruct HK as [_ HK]. apply Qlt_le_weak. eapply Qlt_le_trans; [exact HK|]. change 1%Q with (inject_Z 1). rewrite <- inject_Z_plus, <- Zle_Qle. lia. }
  destruct (C74_fraction W fuel L rnd docs E dbg cf d Hd x q k w Hx (proj1 K) HK Q2 Hf) as (fs & p & s & z & L1 & L2 & L3 & R & PZ & A).
  destruct (chain_near x q k fs p Hx K HK L1 L2 L3) as (P & P1 & P2 & P3). set (r := (q - inject_Z (Z.of_nat k))%Q) in *.
  assert (Hr : (0 < r < 1)%Q). { destruct HK as [K2 K3]. unfold r. split; apply Qplus_lt_l with (inject_Z (Z.of_nat k)); ring_simplify; [exact K2|exact K3]. }
  destruct (gamma_close L r s HP HE Hr R) as (g & G1 & G2). pose proof (formula_range r Hr) as FR.
  assert (RZ : rounds (P * g) z). { destruct p as [t|t| |t m e]; destruct (gamma L s) as [t'|t'| |t' m' e']; cbn [stands_for] in P1, G1; try contradiction; cbn [ieee_product] in PZ; apply (PZ P g); assumption. }
  set (T := Q2R (falling q k)) in *. set (F := lanczos_formula r) in *.
  assert (M : near (65 / 10 ^ 14) (Q2R (P * g)) (T * F)). { rewrite Q2R_mult. apply near_weak with (4 / 10 ^ 14 + 6 / 10 ^ 13 + 4 / 10 ^ 14 * (6 / 10 ^ 13)); [lra|apply Rmult_lt_0_compat; lra|]. apply near_mul; [lra|lra|lra|lra|exact P2|exact G2]. }
  pose proof (product3 T F 1 (IZR (SpecOps.fact 170)) (/ 100) 20 ltac:(lra) ltac:(lra) P3 FR) as TR. assert (TP : 0 < T * F) by lra.
  assert (PG : / 200 <= Q2R (P * g) <= IZR (SpecOps.fact 170) * 20 * 1.1). { apply near_b in M. assert (65 / 10 ^ 14 * (T * F) <= 0.1 * (T * F)) by (apply Rmult_le_compat_r; lra). lra. }
  assert (PQ : (1 # 200 <= P * g)%Q) by (apply Rle_Qle; eapply Rle_trans; [|apply PG]; qnum).
  assert (UQ : (P * g <= inject_Z (SpecOps.fact 170 * 22))%Q) by (apply Rle_Qle; rewrite Q2R_Z, mult_IZR; lra).
  assert (P0 : (0 <= P * g)%Q) by (eapply Qle_trans; [|exact PQ]; discriminate).
  assert (TH : (Qabs (P * g) < overflow_threshold)%Q). { rewrite Qabs_pos by exact P0. eapply Qle_lt_trans; [exact UQ|]. vm_compute. reflexivity. }
  destruct (proj1 RZ TH) as (v & V & _). exists z, v. split; [exact A|]. split; [exact V|]. cbv zeta. fold T F.
  destruct (error_bound _ _ _ RZ V TH) as [B|[B _]].
  - apply Q2R_close in B. rewrite (Qeq_eqR _ _ (Qmult_comp _ _ (Qabs_pos _ P0) _ _ (Qeq_refl (2 ^ (-53))%Q))), (Q2R_mult (P * g)) in B.
    assert (N : near (2 / 10 ^ 16) (Q2R v) (Q2R (P * g))). { unfold near. eapply Rle_trans; [exact B|]. rewrite Rmult_comm. apply Rmult_le_compat_r; [lra|]. unfold Q2R. cbn. lra. }
    apply (near_weak (2 / 10 ^ 16 + 65 / 10 ^ 14 + 2 / 10 ^ 16 * (65 / 10 ^ 14)) (/ 10 ^ 12)); [lra|exact TP|]. apply near_trans with (Q2R (P * g)); [lra|lra|exact TP|exact N|exact M].
  - exfalso. rewrite Qabs_pos in B by exact P0. assert (X : (2 ^ (-1022) < 1 # 200)%Q) by reflexivity. apply (Qlt_irrefl (P * g)). eapply Qlt_trans; [exact B|]. eapply Qlt_le_trans; [exact X|exact PQ].
Qed.
Print Assumptions C85_above_one.

(** ** Such libraries exist: the power and the exponential of the real numbers, cut to 80 binary places and rounded. *)
Definition f_val (x : f64) : Q := match x with S754_finite s m e => dyadic (if s then Zneg m else Zpos m) e | _ => 0%Q end.
Lemma val_stands x a : stands_for x a -> Q2R (f_val x) = Q2R a.
Proof. intros H. apply Qeq_eqR. destruct x as [s|s| |s m e]; cbn [stands_for f_val] in *; try contradiction; [symmetry; exact H|symmetry; apply H]. Qed.
Definition real_double (r : R) : f64 := f_of (Int_part (r * 2 ^ 80)) (-80).
Lemma real_double_near r : / 10 ^ 8 <= r <= 10 ^ 8 -> exists p, stands_for (real_double r) p /\ near (/ 2 ^ 50) (Q2R p) r.
Proof.
  intros Hr. destruct (base_Int_part (r * 2 ^ 80)) as [A B]. unfold real_double, f_of. set (m := Int_part (r * 2 ^ 80)) in *. clearbody m.
  assert (D : Q2R (dyadic m (-80)) = IZR m / 2 ^ 80) by (unfold dyadic; rewrite Q2R_mult, Q2R_Z; unfold Q2R; cbn; lra).
  assert (N : near (/ 10 ^ 16) (Q2R (dyadic m (-80))) r). { rewrite D. unfold near. apply Rabs_le. lra. }
  destruct (round_near (dyadic m (-80)) _ (normalize_rounds m (-80) false)) as (p & P & E); [apply near_b in N; lra|]. exists p. split; [exact P|].
  apply near_weak with (2 / 10 ^ 16 + / 10 ^ 16 + 2 / 10 ^ 16 * / 10 ^ 16); [lra|lra|]. apply near_trans with (Q2R (dyadic m (-80))); [lra|lra|lra|exact E|exact N].
Qed.
Definition best_libm : libm := Libm (fun n x => if str_eqb n (lit "exp") then real_double (exp (Q2R (f_val x))) else x) (fun x y => real_double (Rpower (Q2R (f_val x)) (Q2R (f_val y)))) (fun x _ => x) (fun x _ => x).
Lemma best_power : accurate_power best_libm.
Proof.
  intros x y a b Hx Hy Ha Hb. cbn [powf best_libm]. rewrite (val_stands x a Hx), (val_stands y b Hy). apply Q2R_in in Ha, Hb. replace (Q2R 1) with 1 in Ha by qnum. replace (Q2R 16) with 16 in Ha by qnum. replace (Q2R 0) with 0 in Hb by qnum. replace (Q2R 2) with 2 in Hb by qnum.
  apply real_double_near. split.
  - apply Rle_trans with 1; [lra|]. rewrite <- (Rpower_O (Q2R a)) by lra. apply Rle_Rpower; lra.
  - apply Rle_trans with (Rpower 16 (Q2R b)); [apply Rle_Rpower_l; lra|]. apply Rle_trans with (Rpower 16 (INR 2)); [apply Rle_Rpower; cbn; lra|]. rewrite Rpower_pow by lra. cbn. lra.
Qed.
Lemma best_exp : accurate_exp best_libm.
Proof.
  intros x a Hx Ha. cbn [method1 best_libm]. change (str_eqb (lit "exp") (lit "exp")) with true. cbv iota. rewrite (val_stands x a Hx). apply Q2R_in in Ha. replace (Q2R (-16)) with (-16) in Ha by qnum. replace (Q2R 0) with 0 in Ha by qnum.
  apply real_double_near. split.
  - apply Rle_trans with (/ exp (INR 16)).
    + apply Rinv_le_contravar; [apply exp_pos|]. rewrite <- (Rmult_1_r (INR 16)), <- Rpower_pow_exp. pose proof exp_le_3. pose proof (exp_pos 1). apply Rle_trans with (3 ^ 16); [apply pow_incr; lra|lra].
    + rewrite <- exp_Ropp. destruct (Req_dec (- INR 16) (Q2R a)) as [->|N]; [lra|apply Rlt_le, exp_increasing; cbn in *; lra].
  - apply Rle_trans with (exp 0); [|rewrite exp_0; lra]. destruct (Req_dec (Q2R a) 0) as [->|N]; [lra|apply Rlt_le, exp_increasing; lra].
Qed.
Example C85_case : exists L, accurate_power L /\ accurate_exp L /\ stands_for (f_of 7 (-1)) (7 # 2) /\ (inject_Z (Z.of_nat 3) < 7 # 2 < inject_Z (Z.of_nat 3) + 1)%Q /\ (falling (7 # 2) 3 == 105 # 8)%Q /\
  exists d, f64_context 100 L no_random true std_env true plain_config d.
Proof.
  exists best_libm. split; [exact best_power|]. split; [exact best_exp|]. split; [vm_compute; repeat split; try discriminate; right; discriminate|]. split; [split; reflexivity|]. split; [reflexivity|].
  assert (OK : match checked_context (f64_num 100) best_libm no_random true std_env true plain_config with Ok _ => true | _ => false end = true) by (vm_compute; reflexivity).
  destruct (checked_context (f64_num 100) best_libm no_random true std_env true plain_config) as [d|k|] eqn:Ed; [exists d; left; exact Ed|discriminate OK|discriminate OK].
Qed.
