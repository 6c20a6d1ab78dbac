(** * The decimal exponential and the real one *)
From Coq Require Import List NArith ZArith QArith Qabs Qround Qreals Reals Bool Lia Lra String.
From Verif Require Import ModelBase ModelContext ModelText ModelDefault ModelFloat ModelNum ModelOps ModelDecimal
  SpecText SpecExpr SpecOps SpecDecimal ProofText ProofDefault ProofBuild ProofCtx ProofDecimal ProofDecimal2 ProofDecTrig ProofDecFun ProofDecFun2 ProofReals ProofExp ProofDecReal ProofDecReal2.
Import ListNotations.
Local Open Scope R_scope.

(** exp x up to 1, or 1 *)
Definition top (x : R) : R := Rmax 1 (exp x).
Lemma top_1 x : 1 <= top x. Proof. apply Rmax_l. Qed.
Lemma top_exp x : exp x <= top x. Proof. apply Rmax_r. Qed.
Lemma exp_diff x : Rabs (exp x - 1) <= top x.
Proof. pose proof (exp_pos x). pose proof (top_1 x). pose proof (top_exp x). apply Rabs_le. lra. Qed.

Section Real.
Context {D : Type}.
Variable L : dlib D.
Variable value : D -> Q.
Hypothesis EX : exact_decimals L value.
Notation v := (ProofDecReal.v value).
Definition w25 : R := / 10 ^ 25.
Lemma near25 q r : computes value q r -> Rabs (Q2R q) <= 3900 -> exists z, r = Some z /\ Rabs (v z - Q2R q) <= w25.
Proof. intros C H. destruct (near value 25 3900 q r ltac:(lia) ltac:(reflexivity) ltac:(lia) C H) as (z & Z1 & Z2). exists z. split; [exact Z1|]. unfold w25. rewrite pow_IZR. exact Z2. Qed.

Section Fraction.
Variable x a0 : D.
Variable u : nat -> R.
Hypothesis Hx : Rabs (v x) <= 60.
Notation X := (v x * v x).
Hypothesis Ha : Rabs (v a0 - X) <= w25.
Hypothesis U1 : forall n, u n = 4 * INR n + 6 + X / u (S n).
Hypothesis U2 : forall n, Rabs (v x) <= u n /\ 4 * INR n + 6 <= u n.
Lemma X_bound : 0 <= X <= 3600.
Proof. apply Rabs_def2' in Hx. nra. Qed.

(** One turn: a quotient and a sum. [c] is what is added. *)
Lemma quotient s S_ d : Rabs (v s - S_) <= d -> 5.9 <= v s -> 5.9 <= S_ -> exists q, d_div L a0 s = Some q /\ Rabs (v q - X / S_) <= X * d * (/ v s * / S_) + 1.2 * w25 /\ - w25 <= v q + w25 /\ v q <= 612.
Proof.
  intros Hs Ls LS. pose proof X_bound as XB. assert (W : 0 < w25 < / 10 ^ 20) by (unfold w25; lra). assert (NZ : ~ (value s == 0)%Q) by (apply v_nz; lra).
  assert (Eq : Q2R (value a0 / value s) = v a0 / v s) by (rewrite Q2R_div by exact NZ; reflexivity). pose proof (Rabs_def2' _ _ Ha) as Ha'.
  assert (I : 0 < / v s <= / 5.9) by (split; [apply Rinv_0_lt_compat; lra|apply Rinv_le_contravar; lra]). assert (J : 0 < / S_ <= / 5.9) by (split; [apply Rinv_0_lt_compat; lra|apply Rinv_le_contravar; lra]).
  assert (Sz : - w25 <= v a0 / v s <= 611).
  { unfold Rdiv. split.
    - apply Rle_trans with (- w25 * / v s); [|apply Rmult_le_compat_r; lra]. nra.
    - destruct (Rle_dec 0 (v a0)) as [P|P]; [apply Rle_trans with (3601 * / 5.9); [apply Rmult_le_compat; lra|lra]|]. nra. }
  destruct (near25 _ _ (ed_div _ _ EX a0 s NZ)) as (q & Q1 & Q2); [rewrite Eq; apply Rabs_le; lra|]. rewrite Eq in Q2. exists q. split; [exact Q1|]. pose proof (Rabs_def2' _ _ Q2) as Q3. split; [|lra].
  replace (v q - X / S_) with ((v q - v a0 / v s) + ((v a0 - X) * / v s + - (X * (v s - S_) * (/ v s * / S_)))) by (field; lra).
  eapply Rle_trans; [apply Rabs_triang|]. pose proof (Rabs_triang ((v a0 - X) * / v s) (- (X * (v s - S_) * (/ v s * / S_)))) as T. rewrite Rabs_Ropp, !Rabs_mult, (Rabs_pos_eq (/ v s)), (Rabs_pos_eq (/ S_)) in T by lra.
  rewrite <- (Rabs_mult (v x) (v x)), (Rabs_pos_eq X) in T by lra.
  assert (T1 : Rabs (v a0 - X) * / v s <= w25 * / 5.9) by (apply Rmult_le_compat; try apply Rabs_pos; lra).
  assert (IJ : 0 <= / v s * / S_) by nra. assert (T2 : X * Rabs (v s - S_) * (/ v s * / S_) <= X * d * (/ v s * / S_)) by (apply Rmult_le_compat_r; [exact IJ|apply Rmult_le_compat_l; lra]). lra.
Qed.
Lemma turn n s d : (n <= 100)%nat -> Rabs (v s - u (S n)) <= d -> 5.9 <= v s ->
  exists q r, d_div L a0 s = Some q /\ d_add L (int L (4 * Z.of_nat n + 6)) q = Some r /\ Rabs (v r - u n) <= X * d * (/ v s * / u (S n)) + 2.3 * w25 /\ 4 * INR n + 5.9 <= v r.
Proof.
  intros Hn Hs Ls. assert (W : 0 < w25 < / 10 ^ 20) by (unfold w25; lra). destruct (U2 (S n)) as [_ LS]. pose proof (pos_INR (S n)) as N0. pose proof (pos_INR n) as N1.
  destruct (quotient s (u (S n)) d Hs Ls ltac:(lra)) as (q & Q1 & Q2 & Q3 & Q4). assert (Vi : v (int L (4 * Z.of_nat n + 6)) = 4 * INR n + 6). { rewrite (v_int L value EX) by (rewrite limit_val; lia). rewrite plus_IZR, mult_IZR, <- INR_IZR_INZ. reflexivity. }
  assert (N2 : INR n <= 100) by (rewrite INR_IZR_INZ; apply IZR_le; lia).
  destruct (near25 _ _ (ed_add _ _ EX (int L (4 * Z.of_nat n + 6)) q)) as (r & R1 & R2).
  { rewrite Q2R_plus. change (Rabs (v (int L (4 * Z.of_nat n + 6)) + v q) <= 3900). rewrite Vi. apply Rabs_le. lra. }
  rewrite Q2R_plus in R2. change (Rabs (v r - (v (int L (4 * Z.of_nat n + 6)) + v q)) <= w25) in R2. rewrite Vi in R2. exists q, r. split; [exact Q1|]. split; [exact R1|]. split.
  - rewrite (U1 n). replace (v r - (4 * INR n + 6 + X / u (S n))) with ((v r - (4 * INR n + 6 + v q)) + (v q - X / u (S n))) by ring. eapply Rle_trans; [apply Rabs_triang|]. lra.
  - apply Rabs_def2' in R2. lra.
Qed.
(** The factor of an error is at most about one. *)
Lemma factor s S_ d : Rabs (v s - S_) <= d -> 0 <= d <= / 10 ^ 18 -> 5.9 <= v s -> Rabs (v x) <= S_ -> 6 <= S_ -> X * d * (/ v s * / S_) <= d + / 10 ^ 30.
Proof.
  intros Hs Hd Ls H1 H2. pose proof X_bound as XB. assert (I : 0 < / v s <= / 5.9) by (split; [apply Rinv_0_lt_compat; lra|apply Rinv_le_contravar; lra]). assert (J : 0 < / S_ <= / 6) by (split; [apply Rinv_0_lt_compat; lra|apply Rinv_le_contravar; lra]).
  assert (XX : X = Rabs (v x) * Rabs (v x)) by (rewrite <- Rabs_mult, Rabs_pos_eq; [reflexivity|lra]). pose proof (Rabs_pos (v x)) as A0. set (a := Rabs (v x)) in *. rewrite XX.
  destruct (Rle_dec a 5.9) as [P|P].
  - assert (a * / v s <= 1). { apply Rle_trans with (5.9 * / 5.9); [apply Rmult_le_compat; lra|lra]. } assert (a * / S_ <= 1). { apply Rle_trans with (6 * / 6); [apply Rmult_le_compat; lra|lra]. }
    assert (a * / v s * (a * / S_) <= 1 * 1) by (apply Rmult_le_compat; try apply Rmult_le_pos; lra). replace (a * a * d * (/ v s * / S_)) with (a * / v s * (a * / S_) * d) by ring.
    assert (a * / v s * (a * / S_) * d <= 1 * d) by (apply Rmult_le_compat_r; lra). lra.
  - apply Rabs_def2' in Hs. assert (Q : a * / S_ <= 1). { apply Rmult_le_reg_r with S_; [lra|]. rewrite Rmult_assoc, Rinv_l by lra. lra. }
    assert (Q2 : a * / v s <= 1 + d). { apply Rmult_le_reg_r with (v s); [lra|]. rewrite Rmult_assoc, Rinv_l by lra. nra. }
    replace (a * a * d * (/ v s * / S_)) with (a * / v s * (a * / S_) * d) by ring. assert (a * / v s * (a * / S_) <= (1 + d) * 1) by (apply Rmult_le_compat; try apply Rmult_le_pos; lra).
    assert (a * / v s * (a * / S_) * d <= (1 + d) * 1 * d) by (apply Rmult_le_compat_r; lra). assert (d * d <= / 10 ^ 18 * / 10 ^ 18) by (apply Rmult_le_compat; lra). lra.
Qed.
Lemma late t : forall s d, (t <= 99)%nat -> Rabs (v s - u t) <= d -> 5.9 <= v s -> 0 <= d -> d + INR t * (2.4 * w25) <= / 10 ^ 18 ->
  exists r, exp_loop L t (4 * Z.of_nat t + 2) a0 s = Ok (Some r) /\ Rabs (v r - u 0%nat) <= d + INR t * (2.4 * w25) /\ 5.9 <= v r.
Proof.
  assert (W : 0 < w25) by (unfold w25; lra). assert (W30 : / 10 ^ 30 <= 0.1 * w25) by (unfold w25; lra).
  induction t as [|t IH]; intros s d Ht Hs Ls D0 Hd; cbn [exp_loop].
  - exists s. split; [reflexivity|]. cbn [INR]. rewrite Rmult_0_l, Rplus_0_r. split; assumption.
  - rewrite S_INR in Hd. pose proof (pos_INR t) as T0. assert (TW : 0 <= INR t * (2.4 * w25)) by (apply Rmult_le_pos; lra).
    destruct (turn t s d ltac:(lia) Hs Ls) as (q & r & Q1 & R1 & R2 & R3). rewrite Q1. cbn [ask]. replace (4 * Z.of_nat (S t) + 2)%Z with (4 * Z.of_nat t + 6)%Z by lia. rewrite R1. cbn [ask].
    pose proof (factor s (u (S t)) d Hs ltac:(lra) Ls (proj1 (U2 (S t))) ltac:(pose proof (proj2 (U2 (S t))); pose proof (pos_INR (S t)); lra)) as F.
    destruct (IH r (d + 2.4 * w25)) as (z & Z1 & Z2 & Z3); try lia; try lra.
    replace (4 * Z.of_nat t + 6 - 4)%Z with (4 * Z.of_nat t + 2)%Z by lia. exists z. split; [exact Z1|]. rewrite S_INR. split; lra.
Qed.
Definition start (k : nat) : R := 9 / 10 ^ 50 * 10 ^ k + 4 * w25.
Lemma early k : forall s, (k <= 50)%nat -> Rabs (v s - u (k + 49)%nat) <= start k -> 4 * INR (k + 49) + 5.9 <= v s ->
  exists r, exp_loop L (k + 49) (4 * Z.of_nat (k + 49) + 2) a0 s = Ok (Some r) /\ Rabs (v r - u 0%nat) <= 1.23 * / 10 ^ 23 /\ 5.9 <= v r.
Proof.
  assert (W : w25 = / 10 ^ 25) by reflexivity.
  induction k as [|k IH]; intros s Hk Hs Ls.
  - change (0 + 49)%nat with 49%nat in *. unfold start in Hs. cbn [pow] in Hs. destruct (late 49 s (4.1 * w25)) as (r & R1 & R2 & R3); try lia; try lra.
    + assert (4 * INR 49 = 196) as E by (rewrite INR_IZR_INZ; change (IZR (Z.of_nat 49)) with 49; lra). lra.
    + rewrite INR_IZR_INZ. change (IZR (Z.of_nat 49)) with 49. rewrite W. lra.
    + exists r. split; [exact R1|]. split; [|exact R3]. rewrite INR_IZR_INZ in R2. change (IZR (Z.of_nat 49)) with 49 in R2. rewrite W in R2. lra.
  - change (S k + 49)%nat with (S (k + 49)) in *. cbn [exp_loop]. pose proof (pos_INR k) as K0.
    assert (L1 : 4 * INR (S (k + 49)) = 4 * INR k + 200). { rewrite S_INR, plus_INR, (INR_IZR_INZ 49). change (IZR (Z.of_nat 49)) with 49. lra. }
    assert (Ls' : 205.9 <= v s) by lra. destruct (turn (k + 49) s (start (S k)) ltac:(lia) Hs ltac:(lra)) as (q & r & Q1 & R1 & R2 & R3).
    rewrite Q1. cbn [ask]. replace (4 * Z.of_nat (S (k + 49)) + 2)%Z with (4 * Z.of_nat (k + 49) + 6)%Z by lia. rewrite R1. cbn [ask]. replace (4 * Z.of_nat (k + 49) + 6 - 4)%Z with (4 * Z.of_nat (k + 49) + 2)%Z by lia.
    apply IH; [lia| |exact R3]. eapply Rle_trans; [exact R2|]. pose proof X_bound as XB. pose proof (proj2 (U2 (S (k + 49)))) as LS.
    assert (I : 0 < / v s <= / 205) by (split; [apply Rinv_0_lt_compat; lra|apply Rinv_le_contravar; lra]). assert (J : 0 < / u (S (k + 49)) <= / 205) by (split; [apply Rinv_0_lt_compat; lra|apply Rinv_le_contravar; lra]).
    assert (P : 0 < 10 ^ k) by (apply pow_lt; lra).
    assert (F : X * (/ v s * / u (S (k + 49))) <= 0.1). { apply Rle_trans with (3600 * (/ 205 * / 205)); [|lra]. apply Rmult_le_compat; try lra; [apply Rmult_le_pos; lra|]. apply Rmult_le_compat; lra. }
    assert (P1 : 0 <= start (S k)) by (unfold start; cbn [pow]; rewrite W; lra).
    assert (F2 : X * start (S k) * (/ v s * / u (S (k + 49))) <= 0.1 * start (S k)). { replace (X * start (S k) * (/ v s * / u (S (k + 49)))) with (X * (/ v s * / u (S (k + 49))) * start (S k)) by ring. apply Rmult_le_compat_r; lra. }
    eapply Rle_trans; [apply Rplus_le_compat_r, F2|]. unfold start. cbn [pow]. rewrite W. lra.
Qed.
End Fraction.

Lemma exp_near x : Rabs (v x) <= 60 -> exp (v x) <= 10 ^ 22 -> exists y, checked_exp L x = Ok (Some y) /\ Rabs (v y - exp (v x)) <= 1.01 * / 10 ^ 16 + top (v x) * top (v x) * / 10 ^ 23.
Proof.
  intros Hx Hm. pose proof (top_1 (v x)) as M1. pose proof (top_exp (v x)) as M2. pose proof (exp_pos (v x)) as M0. assert (M3 : top (v x) <= 10 ^ 22) by (unfold top; apply Rmax_lub; lra). pose proof (exp_diff (v x)) as M4.
  pose proof (v_one L value EX) as V1. pose proof (v_zero L value EX) as V0. pose proof (v_two L value EX) as V2. set (M := top (v x)) in *.
  assert (MM : M <= M * M) by nra. assert (Fine : forall y e, Rabs (v y - e) <= / 10 ^ 28 -> Rabs (v y - e) <= 1.01 * / 10 ^ 16 + M * M * / 10 ^ 23) by (intros y e H; assert (0 <= M * M * / 10 ^ 23) by (apply Rmult_le_pos; nra); lra).
  unfold checked_exp. destruct (is_zero L x) eqn:I0.
  { exists (ONE L). split; [reflexivity|]. apply Fine. apply (is_zero_iff L value EX), Qeq_eqR in I0. rewrite Q2R_0 in I0. change (v x = 0) in I0. rewrite I0, exp_0, V1, Rminus_diag_eq, Rabs_R0 by reflexivity. lra. }
  destruct (is_one L x) eqn:I1.
  { exists (cE L). split; [reflexivity|]. apply Fine. apply (is_one_iff L value EX), Qeq_eqR in I1. rewrite Q2R_1 in I1. change (v x = 1) in I1. rewrite I1, Rabs_minus_sym.
    replace (v (cE L)) with (Q2R E_hat); [exact E_enclosed|]. symmetry. apply Qeq_eqR. apply (lit28 L value EX). reflexivity. }
  clear I0 I1. assert (W : w25 = / 10 ^ 25) by reflexivity. set (X := v x * v x). assert (XB : 0 <= X <= 3600) by (unfold X; pose proof (Rabs_def2' _ _ Hx); nra).
  destruct (near25 _ _ (ed_mul _ _ EX x x)) as (a0 & A1 & A2); [rewrite Q2R_mult; change (Rabs X <= 3900); rewrite Rabs_pos_eq; lra|]. rewrite Q2R_mult in A2. change (Rabs (v a0 - X) <= w25) in A2.
  unfold d_mul at 1. rewrite A1. cbn [ask]. destruct (fraction (v x)) as (u & U1 & U2 & P0 & PE). fold X in P0, PE. set (P := 2 + X / u 0%nat - v x) in *.
  (* the loop *)
  assert (V402 : v (int L 402) = 402) by (apply (v_int L value EX); reflexivity).
  destruct (early x a0 u Hx A2 U1 U2 50 (int L 402)) as (r1 & R1 & R2 & R3); [lia| | |].
  { change (50 + 49)%nat with 99%nat. rewrite V402, (U1 99%nat), (INR_IZR_INZ 99). change (IZR (Z.of_nat 99)) with 99. fold X. destruct (U2 100%nat) as [_ B]. rewrite (INR_IZR_INZ 100) in B. change (IZR (Z.of_nat 100)) with 100 in B.
    replace (402 - (4 * 99 + 6 + X / u 100%nat)) with (- (X / u 100%nat)) by ring. rewrite Rabs_Ropp. assert (I : 0 < / u 100%nat <= / 406) by (split; [apply Rinv_0_lt_compat; lra|apply Rinv_le_contravar; lra]).
    unfold Rdiv. rewrite Rabs_pos_eq by (apply Rmult_le_pos; lra). apply Rle_trans with (3600 * / 406); [apply Rmult_le_compat; lra|]. unfold start. rewrite W. lra. }
  { change (50 + 49)%nat with 99%nat. rewrite V402, (INR_IZR_INZ 99). change (IZR (Z.of_nat 99)) with 99. lra. }
  change (50 + 49)%nat with 99%nat in R1. change (4 * Z.of_nat 99 + 2)%Z with 398%Z in R1. rewrite R1. cbn [ModelDecimal.call].
  (* the denominator *)
  destruct (near26 value _ _ (ed_sub _ _ EX (TWO L) x)) as (sm & S1 & S2); [rewrite Q2R_minus; change (Rabs (v (TWO L) - v x) <= 390); rewrite V2; apply Rabs_def2' in Hx; apply Rabs_le; lra|].
  rewrite Q2R_minus in S2. change (Rabs (v sm - (v (TWO L) - v x)) <= / 10 ^ 26) in S2. rewrite V2 in S2. unfold d_sub. rewrite S1. cbn [ask].
  destruct (U2 0%nat) as [U3 U4]. cbn [INR] in U4.
  destruct (quotient x a0 Hx A2 r1 (u 0%nat) (1.23 * / 10 ^ 23) R2 R3 ltac:(lra)) as (q & Q1 & Q2 & Q3 & Q4). pose proof (factor x Hx r1 (u 0%nat) (1.23 * / 10 ^ 23) R2 ltac:(lra) R3 U3 ltac:(lra)) as F. fold X in Q2, F.
  assert (Q5 : Rabs (v q - X / u 0%nat) <= 1.25 * / 10 ^ 23) by (rewrite W in Q2; lra). rewrite Q1. cbn [ask].
  destruct (near25 _ _ (ed_add _ _ EX sm q)) as (r2 & T1 & T2).
  { rewrite Q2R_plus. change (Rabs (v sm + v q) <= 3900). apply Rabs_def2' in S2. apply Rabs_def2' in Hx. rewrite W in Q3. apply Rabs_le. lra. }
  rewrite Q2R_plus in T2. change (Rabs (v r2 - (v sm + v q)) <= w25) in T2. unfold d_add at 1. rewrite T1. cbn [ask].
  assert (RP : Rabs (v r2 - P) <= 1.3 * / 10 ^ 23).
  { unfold P. replace (v r2 - (2 + X / u 0%nat - v x)) with ((v r2 - (v sm + v q)) + ((v sm - (2 - v x)) + (v q - X / u 0%nat))) by ring. eapply Rle_trans; [apply Rabs_triang|].
    pose proof (Rabs_triang (v sm - (2 - v x)) (v q - X / u 0%nat)). rewrite W in T2. lra. }
  assert (PX : P * (exp (v x) - 1) = 2 * v x) by (unfold P in *; lra).
  assert (PM : 2 <= P * M).
  { destruct (Rle_dec (v x) 0) as [N|N].
    - assert (2 <= P). { unfold P. assert (0 <= X / u 0%nat) by (apply Rmult_le_pos; [lra|left; apply Rinv_0_lt_compat; lra]). lra. } nra.
    - pose proof (exp_ineq1_le (- v x)) as E1. assert (E2 : exp (v x) * exp (- v x) = 1) by (rewrite <- exp_plus, Rplus_opp_r; apply exp_0).
      assert (E3 : exp (v x) - 1 <= v x * exp (v x)) by nra. assert (E4 : 2 * v x <= P * (v x * exp (v x))) by (rewrite <- PX; apply Rmult_le_compat_l; lra).
      assert (E5 : 2 <= P * exp (v x)). { apply Rmult_le_reg_l with (v x); [lra|]. lra. } eapply Rle_trans; [exact E5|apply Rmult_le_compat_l; lra]. }
  clearbody P. clear PE Q1 Q2 Q3 Q4 Q5 F R1 R2 R3 T1 T2 S1 S2 U1 U2 U3 U4 A1 A2 V402. clear q sm r1 a0 u.
  assert (PB : 2 * / 10 ^ 22 <= P). { apply Rmult_le_reg_r with M; [lra|]. apply Rle_trans with 2; [|exact PM]. lra. }
  assert (Rr : 0.9 * P <= v r2) by (apply Rabs_def2' in RP; lra).
  assert (I : 0 < / v r2 <= 0.56 * M).
  { split; [apply Rinv_0_lt_compat; lra|]. apply Rmult_le_reg_l with (v r2); [lra|]. rewrite Rinv_r by lra. apply Rle_trans with (0.9 * P * (0.56 * M)); [lra|]. apply Rmult_le_compat_r; lra. }
  (* the quotient *)
  destruct (near26 value _ _ (ed_mul _ _ EX (TWO L) x)) as (xx & X1 & X2); [rewrite Q2R_mult; change (Rabs (v (TWO L) * v x) <= 390); rewrite V2; apply Rabs_def2' in Hx; apply Rabs_le; lra|].
  rewrite Q2R_mult in X2. change (Rabs (v xx - v (TWO L) * v x) <= / 10 ^ 26) in X2. rewrite V2 in X2. unfold d_mul. rewrite X1. cbn [ask].
  assert (NZ : ~ (value r2 == 0)%Q) by (apply v_nz; lra). assert (Eq : Q2R (value xx / value r2) = v xx / v r2) by (rewrite Q2R_div by exact NZ; reflexivity).
  assert (QD : Rabs (v xx / v r2 - (exp (v x) - 1)) <= 0.74 * / 10 ^ 23 * (M * M)).
  { replace (v xx / v r2 - (exp (v x) - 1)) with ((v xx - 2 * v x) * / v r2 + - ((exp (v x) - 1) * (v r2 - P) * / v r2)) by (rewrite <- PX; field; lra).
    eapply Rle_trans; [apply Rabs_triang|]. rewrite Rabs_Ropp, !Rabs_mult, (Rabs_pos_eq (/ v r2)) by lra.
    assert (Y1 : Rabs (v xx - 2 * v x) * / v r2 <= / 10 ^ 26 * (0.56 * M)) by (apply Rmult_le_compat; try apply Rabs_pos; lra).
    assert (Y2 : Rabs (exp (v x) - 1) * Rabs (v r2 - P) <= M * (1.3 * / 10 ^ 23)) by (apply Rmult_le_compat; try apply Rabs_pos; lra).
    assert (Y3 : Rabs (exp (v x) - 1) * Rabs (v r2 - P) * / v r2 <= M * (1.3 * / 10 ^ 23) * (0.56 * M)) by (apply Rmult_le_compat; try lra; apply Rmult_le_pos; apply Rabs_pos). lra. }
  assert (MB : 0.74 * / 10 ^ 23 * (M * M) <= 0.1 * M). { replace (0.74 * / 10 ^ 23 * (M * M)) with (0.74 * / 10 ^ 23 * M * M) by ring. apply Rmult_le_compat_r; lra. }
  assert (QB : Rabs (v xx / v r2) <= 1.1 * M). { replace (v xx / v r2) with ((v xx / v r2 - (exp (v x) - 1)) + (exp (v x) - 1)) by ring. eapply Rle_trans; [apply Rabs_triang|]. lra. }
  destruct (near_rel value _ _ (ed_div _ _ EX xx r2 NZ)) as (q2 & Q1 & Q2); [rewrite Eq; lra|]. rewrite Eq in Q2. unfold d_div. rewrite Q1. cbn [ask].
  assert (Q3 : Rabs (v q2 - v xx / v r2) <= 2 * / 10 ^ 27 * M) by lra.
  assert (Q4 : Rabs (v q2) <= 1.2 * M). { replace (v q2) with ((v q2 - v xx / v r2) + v xx / v r2) by ring. eapply Rle_trans; [apply Rabs_triang|]. lra. }
  destruct (near_rel value _ _ (ed_add _ _ EX (ONE L) q2)) as (r3 & T1 & T2).
  { rewrite Q2R_plus. change (Rabs (v (ONE L) + v q2) <= 10 ^ 28). rewrite V1. eapply Rle_trans; [apply Rabs_triang|]. rewrite Rabs_R1. lra. }
  rewrite Q2R_plus in T2. change (Rabs (v r3 - (v (ONE L) + v q2)) <= / 10 ^ 28 + Rabs (v (ONE L) + v q2) * / 10 ^ 27) in T2. rewrite V1 in T2. unfold d_add. rewrite T1. cbn [ask].
  assert (T3 : Rabs (1 + v q2) <= 2.2 * M). { eapply Rle_trans; [apply Rabs_triang|]. rewrite Rabs_R1. lra. }
  destruct (approx_near L value EX r3) as (y & Y1 & Y2 & _). exists y. split; [exact Y1|].
  replace (v y - exp (v x)) with ((v y - v r3) + ((v r3 - (1 + v q2)) + ((v q2 - v xx / v r2) + (v xx / v r2 - (exp (v x) - 1))))) by ring.
  eapply Rle_trans; [apply Rabs_triang|]. pose proof (Rabs_triang (v r3 - (1 + v q2)) ((v q2 - v xx / v r2) + (v xx / v r2 - (exp (v x) - 1)))). pose proof (Rabs_triang (v q2 - v xx / v r2) (v xx / v r2 - (exp (v x) - 1))). lra.
Qed.
End Real.
