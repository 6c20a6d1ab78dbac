(** * The decimal arctangent and the real one *)
From Coq Require Import List NArith ZArith QArith Qabs Qround Qreals Reals Bool Lia Lra String.
From Verif Require Import ModelBase ModelContext ModelText ModelDefault ModelFloat ModelNum ModelOps ModelDecimal
  SpecText SpecExpr SpecOps SpecDecimal ProofText ProofDefault ProofBuild ProofCtx ProofDecimal ProofDecimal2 ProofDecTrig ProofDecFun ProofDecFun2 ProofReals ProofAtan ProofDecReal ProofDecReal2.
Import ListNotations.
Local Open Scope R_scope.

Lemma atan_lip p q : Rabs (Ratan.atan p - Ratan.atan q) <= Rabs (p - q).
Proof.
  assert (H : forall p q, p < q -> Rabs (Ratan.atan p - Ratan.atan q) <= Rabs (p - q)).
  { clear. intros p q Hpq. destruct (MVT_cor2 Ratan.atan (fun y => / (1 + y * y)) p q Hpq (fun c _ => a0_d c)) as (c & E & Hc).
    rewrite Rabs_minus_sym, E, Rabs_mult, (Rabs_minus_sym p q). pose proof (one_sq c) as C. assert (I : 0 < / (1 + c * c) <= / 1) by (split; [apply Rinv_0_lt_compat, C|apply Rinv_le_contravar; nra]).
    rewrite (Rabs_pos_eq (/ (1 + c * c))) by lra. pose proof (Rabs_pos (q - p)). assert (/ (1 + c * c) * Rabs (q - p) <= 1 * Rabs (q - p)) by (apply Rmult_le_compat_r; lra). lra. }
  destruct (Rtotal_order p q) as [G|[->|G]]; [apply H, G|rewrite !Rminus_diag_eq by reflexivity; lra|rewrite Rabs_minus_sym, (Rabs_minus_sym p q); apply H, G].
Qed.
Lemma atan_inv_pos t : 0 < t -> Ratan.atan (/ t) = PI / 2 - Ratan.atan t.
Proof. intros H. apply atan_inv. exact H. Qed.
Lemma inv_abs a b u d m : 0 < m -> m <= a -> m <= b -> Rabs (a - b) <= d -> 0 <= u -> Rabs (u / a - u / b) <= u * d * (/ a * / b).
Proof.
  intros Hm Ha Hb Hd Hu. replace (u / a - u / b) with (- (u * (a - b) * (/ a * / b))) by (field; lra). rewrite Rabs_Ropp, !Rabs_mult.
  assert (0 < / a) by (apply Rinv_0_lt_compat; lra). assert (0 < / b) by (apply Rinv_0_lt_compat; lra). rewrite (Rabs_pos_eq u), (Rabs_pos_eq (/ a)), (Rabs_pos_eq (/ b)) by lra.
  apply Rmult_le_compat_r; [apply Rmult_le_pos; lra|]. apply Rmult_le_compat_l; lra.
Qed.

Lemma small_mul p m b : Rabs p <= 1 -> 0 <= m <= b -> Rabs (p * m) <= b.
Proof. intros H [H1 H2]. rewrite Rabs_mult, (Rabs_pos_eq m) by exact H1. pose proof (Rabs_pos p). apply Rle_trans with (1 * m); [apply Rmult_le_compat_r; lra|lra]. Qed.

Section Real.
Context {D : Type}.
Variable L : dlib D.
Variable value : D -> Q.
Hypothesis EX : exact_decimals L value.
Notation v := (ProofDecReal.v value).

(** The four operations on values *)
Lemma add26 x y : Rabs (v x + v y) <= 390 -> exists z, d_add L x y = Some z /\ Rabs (v z - (v x + v y)) <= / 10 ^ 26.
Proof. intros H. destruct (near26 value _ _ (ed_add _ _ EX x y)) as (z & A & B); rewrite ?Q2R_plus in *; [exact H|]. exists z. split; [exact A|exact B]. Qed.
Lemma sub26 x y : Rabs (v x - v y) <= 390 -> exists z, d_sub L x y = Some z /\ Rabs (v z - (v x - v y)) <= / 10 ^ 26.
Proof. intros H. destruct (near26 value _ _ (ed_sub _ _ EX x y)) as (z & A & B); rewrite ?Q2R_minus in *; [exact H|]. exists z. split; [exact A|exact B]. Qed.
Lemma sub28 x y : Rabs (v x - v y) <= 3 -> exists z, d_sub L x y = Some z /\ Rabs (v z - (v x - v y)) <= / 10 ^ 28.
Proof. intros H. destruct (near28 value _ _ (ed_sub _ _ EX x y)) as (z & A & B); rewrite ?Q2R_minus in *; [exact H|]. exists z. split; [exact A|exact B]. Qed.
Lemma add28 x y : Rabs (v x + v y) <= 3 -> exists z, d_add L x y = Some z /\ Rabs (v z - (v x + v y)) <= / 10 ^ 28.
Proof. intros H. destruct (near28 value _ _ (ed_add _ _ EX x y)) as (z & A & B); rewrite ?Q2R_plus in *; [exact H|]. exists z. split; [exact A|exact B]. Qed.
Lemma mul26 x y : Rabs (v x * v y) <= 390 -> exists z, d_mul L x y = Some z /\ Rabs (v z - v x * v y) <= / 10 ^ 26.
Proof. intros H. destruct (near26 value _ _ (ed_mul _ _ EX x y)) as (z & A & B); rewrite ?Q2R_mult in *; [exact H|]. exists z. split; [exact A|exact B]. Qed.
Lemma mul28 x y : Rabs (v x * v y) <= 3 -> exists z, d_mul L x y = Some z /\ Rabs (v z - v x * v y) <= / 10 ^ 28.
Proof. intros H. destruct (near28 value _ _ (ed_mul _ _ EX x y)) as (z & A & B); rewrite ?Q2R_mult in *; [exact H|]. exists z. split; [exact A|exact B]. Qed.
Lemma mul24 x y : Rabs (v x * v y) <= 39000 -> exists z, d_mul L x y = Some z /\ Rabs (v z - v x * v y) <= / 10 ^ 24.
Proof. intros H. destruct (near24 value _ _ (ed_mul _ _ EX x y)) as (z & A & B); rewrite ?Q2R_mult in *; [exact H|]. exists z. split; [exact A|exact B]. Qed.
Lemma div26 x y : v y <> 0 -> Rabs (v x / v y) <= 390 -> exists z, d_div L x y = Some z /\ Rabs (v z - v x / v y) <= / 10 ^ 26.
Proof. intros N H. apply v_nz in N. destruct (near26 value _ _ (ed_div _ _ EX x y N)) as (z & A & B); rewrite ?Q2R_div in * by exact N; [exact H|]. exists z. split; [exact A|exact B]. Qed.
Lemma div28 x y : v y <> 0 -> Rabs (v x / v y) <= 3 -> exists z, d_div L x y = Some z /\ Rabs (v z - v x / v y) <= / 10 ^ 28.
Proof. intros N H. apply v_nz in N. destruct (near28 value _ _ (ed_div _ _ EX x y N)) as (z & A & B); rewrite ?Q2R_div in * by exact N; [exact H|]. exists z. split; [exact A|exact B]. Qed.

Section Fraction.
Variable x : D.
Variable U : nat -> R.
Hypothesis Hx : Rabs (v x) <= 1.
Hypothesis U1 : forall m, U m = 2 * INR m + 1 + ((INR m + 1) * v x) * ((INR m + 1) * v x) / U (S m).
Hypothesis U2 : forall m, 2 * INR m + 1 <= U m.
Lemma turn t m r d : (m < 100)%nat -> Rabs (v r - U (S m)) <= d -> 2 * INR m + 2.9 <= v r ->
  exists r', atan_loop L (S t) (Z.of_nat m + 2) x r = atan_loop L t (Z.of_nat m + 1) x r' /\ Rabs (v r' - U m) <= d / 4 + 2 * / 10 ^ 24 /\ 2 * INR m + 0.9 <= v r'.
Proof.
  intros Hm Hr Lr. pose proof (pos_INR m) as M0. assert (M1 : INR m + 1 <= 100) by (rewrite <- S_INR, INR_IZR_INZ; apply IZR_le; lia). pose proof (U2 (S m)) as LU. rewrite S_INR in LU.
  set (M := INR m + 1) in *. assert (ME : M = INR m + 1) by reflexivity. assert (VM : v (int L (Z.of_nat m + 1)) = M). { rewrite (v_int L value EX) by (rewrite limit_val; lia). rewrite plus_IZR, <- INR_IZR_INZ. reflexivity. }
  assert (VN : v (int L (Z.of_nat m + 2)) = M + 1). { rewrite (v_int L value EX) by (rewrite limit_val; lia). rewrite plus_IZR, <- INR_IZR_INZ. unfold M. lra. }
  assert (V2 : v (TWO L) = 2) by (apply (v_two L value EX)). assert (V3 : v (THREE L) = 3) by (apply (v_int L value EX); reflexivity).
  pose proof (Rabs_def2' _ _ Hx) as Hx'.
  assert (XM : Rabs (v x * M) <= 100) by (apply small_mul; [exact Hx|unfold M in *; lra]). pose proof (Rabs_def2' _ _ XM) as XM'.
  cbn [atan_loop]. replace (Z.of_nat m + 2 - 1)%Z with (Z.of_nat m + 1)%Z by lia.
  destruct (mul26 x (int L (Z.of_nat m + 1))) as (z & Z1 & Z2); [rewrite VM; apply Rle_trans with 100; [exact XM|lra]|]. rewrite Z1. cbn [must]. rewrite VM in Z2.
  assert (ZB : Rabs (v z) <= 101). { apply Rabs_def2' in Z2. apply Rabs_le. lra. }
  destruct (mul24 z z) as (z2 & Y1 & Y2). { rewrite Rabs_mult. pose proof (Rabs_pos (v z)). apply Rle_trans with (101 * 101); [apply Rmult_le_compat; lra|lra]. } rewrite Y1. cbn [must].
  set (X := M * v x * (M * v x)). assert (XB : 0 <= X <= M * M). { unfold X. replace (M * v x * (M * v x)) with (M * M * (v x * v x)) by ring. assert (0 <= v x * v x <= 1) by nra. assert (0 <= M * M) by nra. nra. }
  assert (Y3 : Rabs (v z2 - X) <= 4 * / 10 ^ 24).
  { replace (v z2 - X) with ((v z2 - v z * v z) + (v z - v x * M) * (v z + v x * M)) by (unfold X; ring). eapply Rle_trans; [apply Rabs_triang|]. rewrite (Rabs_mult (v z - v x * M)).
    assert (B : Rabs (v z + v x * M) <= 210). { apply Rabs_def2' in ZB. apply Rabs_le. lra. }
    assert (Rabs (v z - v x * M) * Rabs (v z + v x * M) <= / 10 ^ 26 * 210) by (apply Rmult_le_compat; try apply Rabs_pos; lra). lra. }
  assert (I : 0 < / v r <= / 2.9) by (split; [apply Rinv_0_lt_compat; lra|apply Rinv_le_contravar; lra]).
  assert (MR : M * / v r <= / 2). { apply Rmult_le_reg_r with (v r); [lra|]. rewrite Rmult_assoc, Rinv_l by lra. unfold M in *. lra. }
  assert (J : 0 < / U (S m) <= / 2.9) by (split; [apply Rinv_0_lt_compat; lra|apply Rinv_le_contravar; lra]).
  assert (MU : M * / U (S m) <= / 2). { apply Rmult_le_reg_r with (U (S m)); [lra|]. rewrite Rmult_assoc, Rinv_l by lra. unfold M in *. lra. }
  assert (QX : Rabs (v z2 / v r - X / v r) <= 4 * / 10 ^ 24 * / 2.9). { replace (v z2 / v r - X / v r) with ((v z2 - X) * / v r) by (field; lra). rewrite Rabs_mult, (Rabs_pos_eq (/ v r)) by lra. apply Rmult_le_compat; try apply Rabs_pos; lra. }
  assert (XR : 0 <= X / v r <= 50). { unfold Rdiv. split; [apply Rmult_le_pos; lra|]. assert (X * / v r <= M * M * / v r) by (apply Rmult_le_compat_r; lra). assert (M * (M * / v r) <= 100 * / 2) by (apply Rmult_le_compat; try lra; apply Rmult_le_pos; lra). lra. }
  destruct (div26 z2 r) as (q & Q1 & Q2); [lra|apply Rabs_def2' in QX; apply Rabs_le; lra|]. rewrite Q1. cbn [must].
  destruct (mul26 (TWO L) (int L (Z.of_nat m + 2))) as (n2 & N1 & N2); [rewrite V2, VN; apply Rabs_le; unfold M in *; lra|]. rewrite N1. cbn [must]. rewrite V2, VN in N2.
  destruct (sub26 n2 (THREE L)) as (c & C1 & C2); [rewrite V3; apply Rabs_def2' in N2; apply Rabs_le; unfold M in *; lra|]. rewrite C1. cbn [must]. rewrite V3 in C2.
  assert (Qb : Rabs (v q - X / v r) <= 1.5 * / 10 ^ 24). { replace (v q - X / v r) with ((v q - v z2 / v r) + (v z2 / v r - X / v r)) by ring. eapply Rle_trans; [apply Rabs_triang|]. lra. }
  assert (Cb : Rabs (v c - (2 * INR m + 1)) <= 2 * / 10 ^ 26). { replace (v c - (2 * INR m + 1)) with ((v c - (v n2 - 3)) + (v n2 - 2 * (M + 1))) by (unfold M; ring). eapply Rle_trans; [apply Rabs_triang|]. lra. }
  pose proof (Rabs_def2' _ _ Qb) as Qb'. pose proof (Rabs_def2' _ _ Cb) as Cb'.
  destruct (add26 q c) as (r' & R1 & R2); [apply Rabs_le; unfold M in *; lra|]. rewrite R1. cbn [must]. exists r'. split; [reflexivity|]. split; [|apply Rabs_def2' in R2; lra].
  rewrite (U1 m). fold M. fold X. replace (v r' - (2 * INR m + 1 + X / U (S m))) with ((v r' - (v q + v c)) + ((v q - X / v r) + ((v c - (2 * INR m + 1)) + (X / v r - X / U (S m))))) by ring.
  assert (K : Rabs (X / v r - X / U (S m)) <= d / 4).
  { eapply Rle_trans; [apply (inv_abs (v r) (U (S m)) X d 2.9); lra|]. pose proof (Rle_trans _ _ _ (Rabs_pos _) Hr) as D0.
    assert (E : X * (/ v r * / U (S m)) <= / 4). { apply Rle_trans with (M * M * (/ v r * / U (S m))); [apply Rmult_le_compat_r; [apply Rmult_le_pos; lra|lra]|]. replace (M * M * (/ v r * / U (S m))) with (M * / v r * (M * / U (S m))) by ring.
      apply Rle_trans with (/ 2 * / 2); [|lra]. apply Rmult_le_compat; try lra; apply Rmult_le_pos; unfold M; lra. }
    replace (X * d * (/ v r * / U (S m))) with (X * (/ v r * / U (S m)) * d) by ring. assert (X * (/ v r * / U (S m)) * d <= / 4 * d) by (apply Rmult_le_compat_r; lra). lra. }
  eapply Rle_trans; [apply Rabs_triang|]. pose proof (Rabs_triang (v q - X / v r) ((v c - (2 * INR m + 1)) + (X / v r - X / U (S m)))). pose proof (Rabs_triang (v c - (2 * INR m + 1)) (X / v r - X / U (S m))). lra.
Qed.
Definition left_ (k : nat) : R := 50 / 4 ^ 99 * 4 ^ k + 2.7 * / 10 ^ 24.
Lemma loop k : forall r, (k <= 99)%nat -> Rabs (v r - U k) <= left_ k -> 2 * INR k + 0.9 <= v r ->
  exists r', atan_loop L k (Z.of_nat k + 1) x r = Ok (Some r') /\ Rabs (v r' - U 0%nat) <= 3 * / 10 ^ 24 /\ 0.9 <= v r'.
Proof.
  induction k as [|k IH]; intros r Hk Hr Lr.
  - exists r. split; [reflexivity|]. unfold left_ in Hr. cbn [INR] in Lr. rewrite pow_O, Rmult_1_r in Hr. split; [|lra]. eapply Rle_trans; [exact Hr|].
    assert (B : 50 * 10 ^ 25 <= 4 ^ 99). { rewrite !pow_IZR, <- mult_IZR. apply IZR_le. vm_compute. discriminate. }
    assert (50 / 4 ^ 99 <= / 10 ^ 25); [|lra]. assert (P : 0 < 4 ^ 99) by (apply pow_lt; lra). set (F := 4 ^ 99) in *. clearbody F.
    apply Rmult_le_reg_r with F; [exact P|]. unfold Rdiv. rewrite Rmult_assoc, Rinv_l by lra. lra.
  - rewrite S_INR in Lr. destruct (turn k k r (left_ (S k)) ltac:(lia) Hr ltac:(lra)) as (r' & R1 & R2 & R3). replace (Z.of_nat (S k) + 1)%Z with (Z.of_nat k + 2)%Z by lia. rewrite R1. apply IH; [lia| |exact R3].
    eapply Rle_trans; [exact R2|]. unfold left_. cbn [pow]. lra.
Qed.
End Fraction.

Lemma quarter_b : Rabs (v (PI_FRACT_4 L) - PI / 4) <= / 10 ^ 28.
Proof.
  pose proof pi_b as P. unfold PI_FRACT_4. rewrite (v_lit28 L value EX) by (rewrite limit_val; lia). apply Rabs_def2' in P. apply Rabs_le. lra.
Qed.
Lemma half_b : Rabs (v (PI_FRACT_2 L) - PI / 2) <= / 10 ^ 28.
Proof.
  pose proof pi_b as P. unfold PI_FRACT_2. rewrite (v_lit28 L value EX) by (rewrite limit_val; lia). apply Rabs_def2' in P. apply Rabs_le. lra.
Qed.
Lemma v_minus : v (ONE_MINUS L) = -1.
Proof. apply (v_int L value EX). reflexivity. Qed.
Lemma atan_small x dep : Rabs (v x) <= 1 -> exists y, atan_rec L dep x = Ok (Some y) /\ Rabs (v y - Ratan.atan (v x)) <= 1.1 * / 10 ^ 16.
Proof.
  intros Hx. pose proof quarter_b as Q4. pose proof (v_one L value EX) as V1. pose proof (v_zero L value EX) as V0. pose proof v_minus as Vm. pose proof (v_two L value EX) as V2.
  assert (G : forall m k, exists y, (if is_zero L x then some (ZERO L) else if is_one L x then some (PI_FRACT_4 L) else if d_eq L x (ONE_MINUS L) then some (d_neg L (PI_FRACT_4 L))
     else if d_lt L x (ONE_MINUS L) then m else if d_gt L x (ONE L) then k else must (d_mul L (TWO L) (int L 100)) (fun t => must (d_sub L t (ONE L)) (fun r0 => ModelDecimal.call (atan_loop L 99 100 x r0) (fun r1 => must (d_div L x r1) (fun r2 => approx L r2))))) = Ok (Some y) /\ Rabs (v y - Ratan.atan (v x)) <= 1.1 * / 10 ^ 16); [|destruct dep; apply G].
  intros m k. destruct (is_zero L x) eqn:I0.
  { exists (ZERO L). split; [reflexivity|]. apply (is_zero_iff L value EX), Qeq_eqR in I0. rewrite Q2R_0 in I0. change (v x = 0) in I0. rewrite I0, V0, atan_0, Rminus_diag_eq, Rabs_R0 by reflexivity. lra. }
  assert (X0 : v x <> 0). { intros E. assert (T : is_zero L x = true) by (apply (is_zero_iff L value EX), eqR_Qeq; rewrite Q2R_0; exact E). congruence. }
  destruct (is_one L x) eqn:I1.
  { exists (PI_FRACT_4 L). split; [reflexivity|]. apply (is_one_iff L value EX), Qeq_eqR in I1. rewrite Q2R_1 in I1. change (v x = 1) in I1. rewrite I1, atan_1. lra. }
  destruct (d_eq L x (ONE_MINUS L)) eqn:I2.
  { exists (d_neg L (PI_FRACT_4 L)). split; [reflexivity|]. apply (d_eq_iff L value EX), Qeq_eqR in I2. change (v x = v (ONE_MINUS L)) in I2. rewrite I2, Vm. replace (-1) with (- (1)) by ring. rewrite atan_opp, atan_1, (v_neg L value EX). replace (- v (PI_FRACT_4 L) - - (PI / 4)) with (- (v (PI_FRACT_4 L) - PI / 4)) by ring. rewrite Rabs_Ropp. lra. }
  pose proof (Rabs_def2' _ _ Hx) as Hx'. destruct (d_lt L x (ONE_MINUS L)) eqn:I3; [apply (v_lt L value EX) in I3; lra|]. destruct (d_gt L x (ONE L)) eqn:I4.
  { apply (d_gt_iff L value EX), Qlt_Rlt in I4. change (v (ONE L) < v x) in I4. lra. }
  clear I0 I1 I2 I3 I4. assert (V100 : v (int L 100) = 100) by (apply (v_int L value EX); reflexivity).
  destruct (mul26 (TWO L) (int L 100)) as (t & T1 & T2); [rewrite V2, V100; apply Rabs_le; lra|]. rewrite T1. cbn [must]. rewrite V2, V100 in T2. pose proof (Rabs_def2' _ _ T2) as T3.
  destruct (sub26 t (ONE L)) as (r0 & R1 & R2); [rewrite V1; apply Rabs_le; lra|]. rewrite R1. cbn [must]. rewrite V1 in R2. pose proof (Rabs_def2' _ _ R2) as R3.
  destruct (fraction (v x) X0) as (U & U1 & U2 & UE).
  assert (E99 : INR 99 = 99) by (rewrite INR_IZR_INZ; reflexivity). assert (E100 : INR 100 = 100) by (rewrite INR_IZR_INZ; reflexivity).
  assert (ST : Rabs (v r0 - U 99%nat) <= left_ 99).
  { pose proof (U1 99%nat) as A. pose proof (U2 100%nat) as B. rewrite E100 in B. rewrite E99 in A. replace (99 + 1) with 100 in A by lra.
    assert (C : 0 <= 100 * v x * (100 * v x) / U 100%nat <= 49.9). { assert (I : 0 < / U 100%nat <= / 201) by (split; [apply Rinv_0_lt_compat; lra|apply Rinv_le_contravar; lra]). assert (J : 0 <= 100 * v x * (100 * v x) <= 10000) by nra.
      unfold Rdiv. split; [apply Rmult_le_pos; lra|]. apply Rle_trans with (10000 * / 201); [apply Rmult_le_compat; lra|lra]. }
    unfold left_. assert (F : 50 / 4 ^ 99 * 4 ^ 99 = 50) by (field; apply pow_nonzero; lra). rewrite F, A. apply Rabs_le. lra. }
  destruct (loop x U Hx U1 U2 99 r0 (le_n _) ST) as (r1 & L1 & L2 & L3); [rewrite E99; lra|]. change (Z.of_nat 99 + 1)%Z with 100%Z in L1. rewrite L1. cbn [ModelDecimal.call].
  pose proof (U2 0%nat) as B0. cbn [INR] in B0. assert (I : 0 < / v r1 <= / 0.9) by (split; [apply Rinv_0_lt_compat; lra|apply Rinv_le_contravar; lra]).
  destruct (div28 x r1) as (r2 & D1 & D2); [lra|unfold Rdiv; apply small_mul; [exact Hx|lra]|]. rewrite D1. cbn [must].
  assert (J : 0 < / U 0%nat <= / 1) by (split; [apply Rinv_0_lt_compat; lra|apply Rinv_le_contravar; lra]).
  destruct (good_approx L value EX r2 (Ratan.atan (v x))) as (y & Y1 & Y2 & _); [|exists y; split; [exact Y1|exact Y2]].
  assert (AE : Ratan.atan (v x) = v x / U 0%nat) by (rewrite <- UE at 2; field; lra). rewrite AE.
  replace (v r2 - v x / U 0%nat) with ((v r2 - v x / v r1) + v x * (- ((v r1 - U 0%nat) * (/ v r1 * / U 0%nat)))) by (field; lra). eapply Rle_trans; [apply Rabs_triang|].
  assert (K : Rabs (v x * - ((v r1 - U 0%nat) * (/ v r1 * / U 0%nat))) <= 1 * (3 * / 10 ^ 24 * (/ 0.9 * / 1))).
  { rewrite Rabs_mult, Rabs_Ropp, !Rabs_mult, (Rabs_pos_eq (/ v r1)), (Rabs_pos_eq (/ U 0%nat)) by lra. repeat (apply Rmult_le_compat; try apply Rmult_le_pos; try apply Rabs_pos; try lra). apply Rmult_le_pos; lra. }
  lra.
Qed.
(** A decimal that is at most a decimal plus less than one last digit is at most that decimal. *)
Lemma grid x (k : Z) e : v x <= IZR k + e -> e < / 10 ^ 28 -> v x <= IZR k.
Proof.
  intros H E. destruct (ed_representable _ _ EX x) as (c & s & S1 & _ & S2). apply Qeq_eqR in S2. rewrite Q2R_mult, !Q2R_int in S2. change (v x * IZR (10 ^ s) = IZR c) in S2.
  assert (P : 0 < IZR (10 ^ s)) by (apply IZR_lt, Z.pow_pos_nonneg; lia). assert (P2 : IZR (10 ^ s) <= 10 ^ 28). { rewrite (pow_IZR 10 28). apply IZR_le. change (10 ^ Z.of_nat 28)%Z with (10 ^ 28)%Z. apply Z.pow_le_mono_r; lia. }
  assert (C : IZR c < IZR (k * 10 ^ s + 1)).
  { rewrite <- S2, plus_IZR, mult_IZR. assert (v x * IZR (10 ^ s) <= (IZR k + e) * IZR (10 ^ s)) by (apply Rmult_le_compat_r; lra). destruct (Rle_dec e 0) as [N|N]; [nra|].
    assert (e * IZR (10 ^ s) <= e * 10 ^ 28) by (apply Rmult_le_compat_l; lra). assert (e * 10 ^ 28 < / 10 ^ 28 * 10 ^ 28) by (apply Rmult_lt_compat_r; lra). rewrite Rinv_l in H2 by lra. lra. }
  apply lt_IZR in C. assert (C2 : IZR c <= IZR (k * 10 ^ s)) by (apply IZR_le; lia). rewrite mult_IZR, <- S2 in C2. apply Rmult_le_reg_r with (IZR (10 ^ s)); lra.
Qed.
Lemma atan_near x dep : (1 <= dep)%nat -> exists y, atan_rec L dep x = Ok (Some y) /\ Rabs (v y - Ratan.atan (v x)) <= 1.2 * / 10 ^ 16.
Proof.
  intros Hd. destruct (Rle_dec (Rabs (v x)) 1) as [B|B]; [destruct (atan_small x dep B) as (y & Y1 & Y2); exists y; split; [exact Y1|lra]|].
  destruct dep as [|dep]; [lia|]. pose proof (v_one L value EX) as V1. pose proof v_minus as Vm. pose proof half_b as HB. pose proof PI_RGT_0 as PI0. pose proof PI_4 as PI4.
  assert (X0 : v x <> 0) by (intros E; rewrite E, Rabs_R0 in B; lra). cbn [atan_rec].
  destruct (is_zero L x) eqn:I0. { apply (is_zero_iff L value EX), Qeq_eqR in I0. rewrite Q2R_0 in I0. change (v x = 0) in I0. contradiction. }
  destruct (is_one L x) eqn:I1. { apply (is_one_iff L value EX), Qeq_eqR in I1. rewrite Q2R_1 in I1. change (v x = 1) in I1. rewrite I1, Rabs_R1 in B. lra. }
  destruct (d_eq L x (ONE_MINUS L)) eqn:I2. { apply (d_eq_iff L value EX), Qeq_eqR in I2. change (v x = v (ONE_MINUS L)) in I2. rewrite I2, Vm, Rabs_left in B by lra. lra. }
  assert (IA : Rabs (/ v x) < 1). { rewrite Rabs_inv. rewrite <- Rinv_1. apply Rinv_lt_contravar; lra. }
  assert (Dv : exists i, d_div L (ONE L) x = Some i /\ Rabs (v i - / v x) <= / 10 ^ 28 /\ Rabs (v i) <= 1).
  { destruct (div28 (ONE L) x X0) as (i & J1 & J2); [rewrite V1; unfold Rdiv; rewrite Rmult_1_l; lra|]. rewrite V1 in J2. unfold Rdiv in J2. rewrite Rmult_1_l in J2. exists i. split; [exact J1|]. split; [exact J2|].
    apply Rabs_def2' in J2. apply Rabs_def2 in IA. assert (U : v i <= 1). { apply (grid i 1 (v i - 1)); lra. } assert (W : - v i <= 1). { rewrite <- (v_neg L value EX). apply (grid (d_neg L i) 1 (- v i - 1)); rewrite ?(v_neg L value EX); lra. } apply Rabs_le. lra. }
  destruct Dv as (i & J1 & J2 & J3). destruct (atan_small i dep J3) as (a & A1 & A2). assert (AL : Rabs (v a - Ratan.atan (/ v x)) <= 1.11 * / 10 ^ 16).
  { replace (v a - Ratan.atan (/ v x)) with ((v a - Ratan.atan (v i)) + (Ratan.atan (v i) - Ratan.atan (/ v x))) by ring. eapply Rle_trans; [apply Rabs_triang|]. pose proof (atan_lip (v i) (/ v x)). lra. }
  assert (AB : Rabs (v a) <= 1.1). { pose proof (atan_lip (v i) 0) as Z. rewrite atan_0, !Rminus_0_r in Z. replace (v a) with ((v a - Ratan.atan (v i)) + Ratan.atan (v i)) by ring. eapply Rle_trans; [apply Rabs_triang|]. lra. }
  pose proof (Rabs_def2' _ _ AB) as AB'. pose proof (Rabs_def2' _ _ HB) as HB'. pose proof PI2_3_2 as P32. assert (P16 : PI / 2 <= 1.6). { pose proof pi_b as P. apply Rabs_def2' in P. lra. } unfold PI2 in P32.
  destruct (d_lt L x (ONE_MINUS L)) eqn:I3.
  - apply (v_lt L value EX) in I3. rewrite Vm in I3. rewrite J1. cbn [must]. rewrite A1. cbn [ModelDecimal.call].
    destruct (sub28 (d_neg L (PI_FRACT_2 L)) a) as (r & R1 & R2); [rewrite (v_neg L value EX); apply Rabs_le; lra|]. rewrite R1. cbn [must]. rewrite (v_neg L value EX) in R2. exists r. split; [reflexivity|].
    assert (E : Ratan.atan (v x) = - (PI / 2) - Ratan.atan (/ v x)). { replace (/ v x) with (- / (- v x)) by (field; lra). rewrite atan_opp, atan_inv_pos by lra. rewrite atan_opp. ring. } rewrite E.
    replace (v r - (- (PI / 2) - Ratan.atan (/ v x))) with ((v r - (- v (PI_FRACT_2 L) - v a)) + (- (v (PI_FRACT_2 L) - PI / 2) + - (v a - Ratan.atan (/ v x)))) by ring. eapply Rle_trans; [apply Rabs_triang|].
    pose proof (Rabs_triang (- (v (PI_FRACT_2 L) - PI / 2)) (- (v a - Ratan.atan (/ v x)))) as T. rewrite !Rabs_Ropp in T. lra.
  - apply (v_lt_f L value EX) in I3. rewrite Vm in I3. assert (X1 : 1 < v x). { destruct (Rle_dec (v x) 1) as [N|N]; [|lra]. exfalso. apply B. apply Rabs_le. lra. }
    destruct (d_gt L x (ONE L)) eqn:I4. 2:{ apply (d_gt_false L value EX) in I4. apply Qle_Rle in I4. change (v x <= v (ONE L)) in I4. lra. }
    rewrite J1. cbn [must]. rewrite A1. cbn [ModelDecimal.call]. destruct (sub28 (PI_FRACT_2 L) a) as (r & R1 & R2); [apply Rabs_le; lra|]. rewrite R1. cbn [must]. exists r. split; [reflexivity|].
    assert (E : Ratan.atan (v x) = PI / 2 - Ratan.atan (/ v x)) by (rewrite atan_inv_pos by lra; ring). rewrite E.
    replace (v r - (PI / 2 - Ratan.atan (/ v x))) with ((v r - (v (PI_FRACT_2 L) - v a)) + ((v (PI_FRACT_2 L) - PI / 2) + - (v a - Ratan.atan (/ v x)))) by ring. eapply Rle_trans; [apply Rabs_triang|].
    pose proof (Rabs_triang (v (PI_FRACT_2 L) - PI / 2) (- (v a - Ratan.atan (/ v x)))) as T. rewrite !Rabs_Ropp in T. lra.
Qed.
End Real.
