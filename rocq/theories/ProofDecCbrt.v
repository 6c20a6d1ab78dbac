(** * The decimal cube root and the real one *)
From Coq Require Import List NArith ZArith QArith Qabs Qround Qreals Reals Bool Lia Lra String.
From Verif Require Import ModelBase ModelContext ModelText ModelDefault ModelFloat ModelNum ModelOps ModelDecimal
  SpecText SpecExpr SpecOps SpecDecimal ProofText ProofDefault ProofBuild ProofCtx ProofDecimal ProofDecimal2 ProofDecTrig ProofDecFun ProofDecFun2 ProofReals ProofDecReal ProofDecReal2 ProofDecAtan.
Import ListNotations.
Local Open Scope R_scope.

(** ** Newton's step on the reals, relative to the root *)
Definition newton (a y : R) : R := (a / (y * y) + 2 * y) / 3.
Definition G (t : R) : R := t * t * (3 + 2 * t) / (3 * ((1 + t) * (1 + t))).
Lemma newton_G c t : 0 < c -> 0 < 1 + t -> newton (c * c * c) (c * (1 + t)) = c * (1 + G t).
Proof. intros Hc Ht. unfold newton, G. field. lra. Qed.
Lemma G_pos t : 0 < 1 + t -> 0 <= 3 + 2 * t -> 0 <= G t.
Proof. intros H H'. unfold G. apply Rmult_le_pos; [apply Rmult_le_pos; [nra|exact H']|]. left. apply Rinv_0_lt_compat. nra. Qed.
Lemma G_linear t : 0 <= t -> G t <= 2 / 3 * t.
Proof.
  intros H. unfold G. apply Rmult_le_reg_r with (3 * ((1 + t) * (1 + t))); [nra|]. unfold Rdiv at 1. rewrite Rmult_assoc, Rinv_l, Rmult_1_r by nra. nra.
Qed.
Lemma G_square t : -0.01 <= t <= 0.01 -> G t <= 1.1 * (t * t).
Proof.
  intros H. unfold G. apply Rmult_le_reg_r with (3 * ((1 + t) * (1 + t))); [nra|]. unfold Rdiv. rewrite Rmult_assoc, Rinv_l, Rmult_1_r by nra. assert (0 <= t * t) by nra.
  assert (3 + 2 * t <= 1.1 * (3 * ((1 + t) * (1 + t)))) by nra. replace (1.1 * (t * t) * (3 * ((1 + t) * (1 + t)))) with (t * t * (1.1 * (3 * ((1 + t) * (1 + t))))) by ring. apply Rmult_le_compat_l; assumption.
Qed.
Definition e28 : R := / 10 ^ 28.
Lemma e28_is : e28 = / 10 ^ 28. Proof. reflexivity. Qed.

Section Real.
Context {D : Type}.
Variable L : dlib D.
Variable value : D -> Q.
Hypothesis EX : exact_decimals L value.
Notation v := (ProofDecReal.v value).
Lemma addr x y : Rabs (v x + v y) <= 10 ^ 28 -> exists z, d_add L x y = Some z /\ Rabs (v z - (v x + v y)) <= e28 + 10 * e28 * Rabs (v x + v y).
Proof. intros H. destruct (near_rel value _ _ (ed_add _ _ EX x y)) as (z & A & B); rewrite ?Q2R_plus in *; [exact H|]. exists z. split; [exact A|]. change (Rabs (v z - (v x + v y)) <= / 10 ^ 28 + Rabs (v x + v y) * / 10 ^ 27) in B. rewrite e28_is. lra. Qed.
Lemma mulr x y : Rabs (v x * v y) <= 10 ^ 28 -> exists z, d_mul L x y = Some z /\ Rabs (v z - v x * v y) <= e28 + 10 * e28 * Rabs (v x * v y).
Proof. intros H. destruct (near_rel value _ _ (ed_mul _ _ EX x y)) as (z & A & B); rewrite ?Q2R_mult in *; [exact H|]. exists z. split; [exact A|]. change (Rabs (v z - v x * v y) <= / 10 ^ 28 + Rabs (v x * v y) * / 10 ^ 27) in B. rewrite e28_is. lra. Qed.
Lemma divr x y : v y <> 0 -> Rabs (v x / v y) <= 10 ^ 28 -> exists z, d_div L x y = Some z /\ Rabs (v z - v x / v y) <= e28 + 10 * e28 * Rabs (v x / v y).
Proof. intros N H. apply v_nz in N. destruct (near_rel value _ _ (ed_div _ _ EX x y N)) as (z & A & B); rewrite ?Q2R_div in * by exact N; [exact H|]. exists z. split; [exact A|]. change (Rabs (v z - v x / v y) <= / 10 ^ 28 + Rabs (v x / v y) * / 10 ^ 27) in B. rewrite e28_is. lra. Qed.
Lemma third : Rabs (v (ONE_FRACT_3 L) - / 3) <= e28.
Proof. unfold ONE_FRACT_3. rewrite (v_lit28 L value EX) by (rewrite limit_val; lia). rewrite e28_is. apply Rabs_le. lra. Qed.

Section Root.
Variable self : D.
Variable c : R.
Hypothesis Hc : 4 * / 10 ^ 10 <= c <= 100000.
Hypothesis Ha : v self = c * c * c.
Definition H (y : R) : R := 3 * e28 + 0.5 * e28 * / c + 50 * e28 * y.
Lemma step t x : 0.99 * c <= v x <= 9.9 * 10 ^ 13 ->
  exists x', cbrt_loop L (S t) self x = cbrt_loop L t self x' /\ Rabs (v x' - newton (v self) (v x)) <= H (v x).
Proof.
  intros [Y1 Y2]. cbn [cbrt_loop]. set (y := v x) in *. assert (E : 0 < e28 <= / 10 ^ 27) by (rewrite e28_is; lra). pose proof (v_two L value EX) as V2. pose proof third as TH. unfold H. set (w := e28) in *.
  assert (W : forall z, Rabs z <= w -> - w <= z <= w) by (intros; apply Rabs_def2'; assumption).
  assert (Y0 : 3.9 * / 10 ^ 10 <= y) by lra. assert (YY : 1.5 * / 10 ^ 19 <= y * y) by nra. assert (YM : y * y <= 0.99 * 10 ^ 28). { apply Rle_trans with (9.9 * 10 ^ 13 * (9.9 * 10 ^ 13)); [apply Rmult_le_compat; lra|lra]. }
  set (Y := y * y) in *. assert (Y0' : 0 < Y) by lra. set (I := / Y). assert (IP : 0 < I) by (apply Rinv_0_lt_compat; lra). assert (IM : I <= 7 * 10 ^ 18). { unfold I. apply Rle_trans with (/ (1.5 * / 10 ^ 19)); [apply Rinv_le_contravar; lra|lra]. }
  set (J := / c) in *. assert (JP : 0 < J) by (apply Rinv_0_lt_compat; lra). assert (CJ : c * J = 1) by (apply Rinv_r; lra). assert (YI : Y * I = 1) by (apply Rinv_r; lra).
  assert (IJ : I <= 1.03 * (J * J)). { replace (1.03 * (J * J)) with (/ (c * c / 1.03)) by (unfold J; field; lra). unfold I. apply Rinv_le_contravar; [nra|]. unfold Y. nra. }
  destruct (mulr x x) as (xx & A1 & A2); [fold y; fold Y; rewrite Rabs_pos_eq; lra|]. rewrite A1. cbn [ask]. fold y in A2. fold Y in A2. fold w in A2. rewrite (Rabs_pos_eq Y) in A2 by lra.
  assert (WY : w + 10 * w * Y <= 0.001 * Y).
  { apply Rle_trans with ((w * I + 10 * w) * Y); [replace ((w * I + 10 * w) * Y) with (w * (Y * I) + 10 * w * Y) by ring; rewrite YI; lra|]. apply Rmult_le_compat_r; [lra|].
    assert (w * I <= / 10 ^ 27 * (7 * 10 ^ 18)) by (apply Rmult_le_compat; lra). lra. }
  pose proof (Rabs_def2' _ _ A2) as A3. assert (XX : 0.999 * Y <= v xx) by lra. assert (XP : 0 < / v xx <= 1.002 * I).
  { split; [apply Rinv_0_lt_compat; lra|]. apply Rle_trans with (/ (0.999 * Y)); [apply Rinv_le_contravar; lra|]. unfold I. rewrite Rinv_mult. apply Rmult_le_compat_r; [unfold I in IP; lra|lra]. }
  (* the quotient *)
  set (A := v self * I). assert (C0 : 0 < c) by lra. assert (A0 : 0 < A <= 1.03 * c).
  { unfold A. rewrite Ha. split; [apply Rmult_lt_0_compat; [|exact IP]; apply Rmult_lt_0_compat; [|exact C0]; apply Rmult_lt_0_compat; exact C0|].
    apply Rle_trans with (c * c * c * (1.03 * (J * J))); [apply Rmult_le_compat_l; [|exact IJ]; apply Rmult_le_pos; [apply Rmult_le_pos|]; lra|]. replace (c * c * c * (1.03 * (J * J))) with (1.03 * c * (c * J) * (c * J)) by ring. rewrite CJ. lra. }
  assert (AI : A * I <= 1.07 * J).
  { apply Rle_trans with (1.03 * c * (1.03 * (J * J))); [apply Rmult_le_compat; lra|]. replace (1.03 * c * (1.03 * (J * J))) with (1.03 * 1.03 * (c * J) * J) by ring. rewrite CJ. lra. }
  assert (Q0 : Rabs (v self / v xx - A) <= w * (1.08 * J + 11 * c)).
  { replace (v self / v xx - A) with (- (A * ((v xx - Y) * / v xx))) by (unfold A, I; field; lra). rewrite Rabs_Ropp, !Rabs_mult, (Rabs_pos_eq A), (Rabs_pos_eq (/ v xx)) by lra.
    apply Rle_trans with (A * ((w + 10 * w * Y) * (1.002 * I))); [apply Rmult_le_compat_l; [lra|]; apply Rmult_le_compat; try apply Rabs_pos; lra|].
    replace (A * ((w + 10 * w * Y) * (1.002 * I))) with (w * (1.002 * (A * I) + 10 * 1.002 * A * (Y * I))) by ring. rewrite YI. apply Rmult_le_compat_l; lra. }
  assert (WJ : w * J <= / 10 ^ 17). { assert (J <= 2.5 * 10 ^ 9). { unfold J. apply Rle_trans with (/ (4 * / 10 ^ 10)); [apply Rinv_le_contravar; lra|lra]. } apply Rle_trans with (/ 10 ^ 27 * (2.5 * 10 ^ 9)); [apply Rmult_le_compat; lra|lra]. }
  assert (WC0 : 0 <= w * c) by (apply Rmult_le_pos; lra). assert (WJ0 : 0 <= w * J) by (apply Rmult_le_pos; lra). assert (WY0 : 0 <= w * y) by (apply Rmult_le_pos; lra).
  assert (WC : w * c <= / 10 ^ 22) by (apply Rle_trans with (/ 10 ^ 27 * 100000); [apply Rmult_le_compat; lra|lra]). pose proof (Rabs_def2' _ _ Q0) as Q0'.
  assert (Q1 : 0 <= v self / v xx <= 1.04 * c). { split; [apply Rmult_le_pos; [|lra]; rewrite Ha; apply Rmult_le_pos; [apply Rmult_le_pos|]; lra|]. assert (w * (1.08 * J + 11 * c) <= 0.01 * c); [|lra]. assert (w * J <= 0.001 * c) by lra. assert (w * c <= 0.0001 * c) by (apply Rmult_le_compat_r; lra). lra. }
  destruct (mulr (TWO L) x) as (x2 & B1 & B2); [rewrite V2; fold y; rewrite Rabs_pos_eq by lra; apply Rle_trans with (2 * (9.9 * 10 ^ 13)); lra|]. rewrite V2 in B2. fold y in B2. fold w in B2. rewrite (Rabs_pos_eq (2 * y)) in B2 by lra. rewrite B1. cbn [ask].
  destruct (divr self xx) as (q & D1 & D2); [lra|rewrite Rabs_pos_eq; lra|]. fold w in D2. rewrite (Rabs_pos_eq (v self / v xx)) in D2 by lra. rewrite D1. cbn [ask].
  assert (WQ : w * (v self / v xx) <= w * (1.04 * c)) by (apply Rmult_le_compat_l; lra).
  assert (D3 : Rabs (v q - A) <= w * (1 + 1.08 * J + 21.5 * c)). { replace (v q - A) with ((v q - v self / v xx) + (v self / v xx - A)) by ring. eapply Rle_trans; [apply Rabs_triang|]. lra. }
  assert (CY : c <= 1.0102 * y) by lra. assert (WCY : w * c <= w * (1.0102 * y)) by (apply Rmult_le_compat_l; lra).
  assert (S1 : Rabs ((v q + v x2) - (A + 2 * y)) <= w * (2 + 1.08 * J + 42 * y)). { replace ((v q + v x2) - (A + 2 * y)) with ((v q - A) + (v x2 - 2 * y)) by ring. eapply Rle_trans; [apply Rabs_triang|]. lra. }
  assert (WY2 : w * y <= / 10 ^ 13 ) by (apply Rle_trans with (/ 10 ^ 27 * (9.9 * 10 ^ 13)); [apply Rmult_le_compat; lra|lra]).
  assert (W1 : w * (2 + 1.08 * J + 42 * y) <= 0.01 * y).
  { assert (w * y <= / 10 ^ 27 * y) by (apply Rmult_le_compat_r; lra). assert (JY : J <= 10 ^ 19 * y). { apply Rle_trans with (2.5 * 10 ^ 9); [unfold J; apply Rle_trans with (/ (4 * / 10 ^ 10)); [apply Rinv_le_contravar; lra|lra]|lra]. }
    assert (w * J <= / 10 ^ 27 * (10 ^ 19 * y)) by (apply Rmult_le_compat; lra). lra. }
  pose proof (Rabs_def2' _ _ S1) as S1'. assert (S2 : 0 <= v q + v x2 <= 3.1 * y) by lra.
  destruct (addr q x2) as (b & F1 & F2); [rewrite Rabs_pos_eq; lra|]. fold w in F2. rewrite (Rabs_pos_eq (v q + v x2)) in F2 by lra. rewrite F1. cbn [ask].
  assert (WS : w * (v q + v x2) <= w * (3.1 * y)) by (apply Rmult_le_compat_l; lra).
  assert (F3 : Rabs (v b - (A + 2 * y)) <= w * (3 + 1.08 * J + 73 * y)). { replace (v b - (A + 2 * y)) with ((v b - (v q + v x2)) + ((v q + v x2) - (A + 2 * y))) by ring. eapply Rle_trans; [apply Rabs_triang|]. lra. }
  assert (W2 : w * (3 + 1.08 * J + 73 * y) <= 0.02 * y) by lra. pose proof (Rabs_def2' _ _ F3) as F3'. assert (B0 : 0 <= v b <= 3.1 * y) by lra.
  pose proof (W _ TH) as TH'. assert (BT : 0 <= v b * v (ONE_FRACT_3 L) <= 1.1 * y). { split; [apply Rmult_le_pos; lra|]. apply Rle_trans with (3.1 * y * (/ 3 + w)); [apply Rmult_le_compat; lra|]. lra. }
  destruct (mulr b (ONE_FRACT_3 L)) as (x' & K1 & K2); [rewrite Rabs_pos_eq; lra|]. fold w in K2. rewrite (Rabs_pos_eq (v b * v (ONE_FRACT_3 L))) in K2 by lra. rewrite K1. cbn [ask]. exists x'. split; [reflexivity|].
  assert (WB : w * (v b * v (ONE_FRACT_3 L)) <= w * (1.1 * y)) by (apply Rmult_le_compat_l; lra).
  assert (T3 : Rabs (v b * (v (ONE_FRACT_3 L) - / 3)) <= w * (3.1 * y)). { rewrite Rabs_mult, (Rabs_pos_eq (v b)), Rmult_comm by lra. apply Rmult_le_compat; try apply Rabs_pos; lra. }
  replace (v x' - newton (v self) y) with ((v x' - v b * v (ONE_FRACT_3 L)) + (v b * (v (ONE_FRACT_3 L) - / 3) + (v b - (A + 2 * y)) * / 3)) by (unfold newton, A, I, Y; field; lra).
  eapply Rle_trans; [apply Rabs_triang|]. pose proof (Rabs_triang (v b * (v (ONE_FRACT_3 L) - / 3)) ((v b - (A + 2 * y)) * / 3)) as T. rewrite (Rabs_mult (v b - (A + 2 * y))), (Rabs_pos_eq (/ 3)) in T by lra. lra.
Qed.

(** ** In relative terms: v x = c (1 + t) *)
Notation J := (/ c).
Definition hh : R := 3 * e28 * J + 0.5 * e28 * (J * J) + 51 * e28.
Lemma J_range : 0 < J <= 2.5 * 10 ^ 9.
Proof. split; [apply Rinv_0_lt_compat; lra|]. apply Rle_trans with (/ (4 * / 10 ^ 10)); [apply Rinv_le_contravar; lra|lra]. Qed.
Lemma hh_range : 51 * e28 <= hh <= / 10 ^ 9.
Proof.
  pose proof J_range as [J0 J1]. unfold hh. assert (E : 0 < e28) by (rewrite e28_is; lra). assert (JJ : 0 <= J * J <= 2.5 * 10 ^ 9 * (2.5 * 10 ^ 9)) by (split; [apply Rmult_le_pos; lra|apply Rmult_le_compat; lra]).
  assert (E1 : 0 <= e28 * J) by (apply Rmult_le_pos; lra). assert (E2 : 0 <= e28 * (J * J)) by (apply Rmult_le_pos; lra). split; [lra|].
  assert (E3 : e28 * J <= e28 * (2.5 * 10 ^ 9)) by (apply Rmult_le_compat_l; lra). assert (E4 : e28 * (J * J) <= e28 * (2.5 * 10 ^ 9 * (2.5 * 10 ^ 9))) by (apply Rmult_le_compat_l; lra). rewrite e28_is in *. lra.
Qed.
Lemma relative k x t : v x = c * (1 + t) -> -0.001 <= t -> v x <= 9.9 * 10 ^ 13 ->
  exists x' t', cbrt_loop L (S k) self x = cbrt_loop L k self x' /\ v x' = c * (1 + t') /\ Rabs (t' - G t) <= hh + 50 * e28 * t.
Proof.
  intros Hx Ht Hm. assert (C0 : 0 < c) by lra. destruct (step k x) as (x' & X1 & X2); [split; [rewrite Hx; nra|exact Hm]|]. exists x', (v x' * J - 1). split; [exact X1|]. split; [field; lra|].
  rewrite Hx, Ha, newton_G in X2 by lra. replace (v x' * J - 1 - G t) with ((v x' - c * (1 + G t)) * J) by (field; lra). rewrite Rabs_mult, (Rabs_pos_eq J) by (pose proof J_range; lra).
  pose proof J_range as [J0 _]. apply Rle_trans with (H (c * (1 + t)) * J); [apply Rmult_le_compat_r; lra|]. unfold H, hh. assert (CJ : c * J = 1) by (apply Rinv_r; lra).
  replace ((3 * e28 + 0.5 * e28 * J + 50 * e28 * (c * (1 + t))) * J) with (3 * e28 * J + 0.5 * e28 * (J * J) + 50 * e28 * (1 + t) * (c * J)) by ring. rewrite CJ. assert (0 < e28) by (rewrite e28_is; lra). lra.
Qed.
(** *** Far off: each turn takes a third of the distance away. *)
Lemma linear1 k x t T : v x = c * (1 + t) -> - / 10 ^ 8 <= t <= T -> 0 <= T <= 10 ^ 10 -> c * (1 + T) <= 9.9 * 10 ^ 13 ->
  exists x' t', cbrt_loop L (S k) self x = cbrt_loop L k self x' /\ v x' = c * (1 + t') /\ - / 10 ^ 8 <= t' <= 0.667 * T + 1.332 * / 10 ^ 8.
Proof.
  intros Hx Ht H0 Hm. assert (C0 : 0 < c) by lra. destruct (relative k x t Hx ltac:(lra)) as (x' & t' & X1 & X2 & X3); [rewrite Hx; apply Rle_trans with (c * (1 + T)); [apply Rmult_le_compat_l; lra|exact Hm]|].
  exists x', t'. split; [exact X1|]. split; [exact X2|]. pose proof hh_range as [_ HH]. pose proof (G_pos t ltac:(lra) ltac:(lra)) as G0. apply Rabs_def2' in X3.
  assert (E : 0 < e28 <= / 10 ^ 27) by (rewrite e28_is; lra). assert (ET : 50 * e28 * t <= / 10 ^ 25 * T). { destruct (Rle_dec 0 t); [|assert (0 <= / 10 ^ 25 * T) by (apply Rmult_le_pos; lra); nra]. apply Rmult_le_compat; lra. }
  assert (ET2 : - / 10 ^ 25 <= 50 * e28 * t) by nra.
  assert (GT : G t <= 2 / 3 * T + 1.1 * / 10 ^ 16). { destruct (Rle_dec 0 t) as [P|P]; [pose proof (G_linear t P); lra|]. pose proof (G_square t ltac:(lra)). assert (t * t <= / 10 ^ 8 * / 10 ^ 8) by nra. lra. }
  split; lra.
Qed.
Lemma linear k : forall n x t T, v x = c * (1 + t) -> - / 10 ^ 8 <= t <= T -> 0 <= T <= 10 ^ 10 -> c * (1 + T) <= 9.8 * 10 ^ 13 ->
  exists x' t', cbrt_loop L (k + n) self x = cbrt_loop L n self x' /\ v x' = c * (1 + t') /\ - / 10 ^ 8 <= t' <= T * 0.667 ^ k + 4 * / 10 ^ 8 * (1 - 0.667 ^ k).
Proof.
  induction k as [|k IH]; intros n x t T Hx Ht H0 Hm.
  - exists x, t. split; [reflexivity|]. split; [exact Hx|]. rewrite pow_O. lra.
  - destruct (linear1 (k + n) x t T Hx Ht H0 ltac:(lra)) as (x1 & t1 & A1 & A2 & A3).
    destruct (IH n x1 t1 (0.667 * T + 1.332 * / 10 ^ 8) A2 A3 ltac:(lra)) as (x' & t' & B1 & B2 & B3).
    { assert (c * (1 + (0.667 * T + 1.332 * / 10 ^ 8)) <= 0.667 * (c * (1 + T)) + c) by nra. lra. }
    exists x', t'. split; [change (S k + n)%nat with (S (k + n)); rewrite A1; exact B1|]. split; [exact B2|]. cbn [pow]. set (p := 0.667 ^ k) in *. clearbody p. lra.
Qed.
(** *** Near: the distance is squared. *)
Lemma square1 k x t A B : v x = c * (1 + t) -> Rabs t <= A + 1.01 * hh -> 0 <= A <= / 10 ^ 5 -> 2.2 * (A * A) <= B ->
  exists x' t', cbrt_loop L (S k) self x = cbrt_loop L k self x' /\ v x' = c * (1 + t') /\ Rabs t' <= B + 1.01 * hh.
Proof.
  intros Hx Ht HA HB. pose proof hh_range as [H1 H2]. assert (E : 0 < e28) by (rewrite e28_is; lra). pose proof (Rabs_def2' _ _ Ht) as Ht'. 
  destruct (relative k x t Hx ltac:(lra)) as (x' & t' & X1 & X2 & X3); [rewrite Hx; apply Rle_trans with (100000 * 2); [apply Rmult_le_compat; lra|lra]|]. exists x', t'. split; [exact X1|]. split; [exact X2|].
  pose proof (G_pos t ltac:(lra) ltac:(lra)) as G0. pose proof (G_square t ltac:(lra)) as G1. assert (TT : t * t <= (A + 1.01 * hh) * (A + 1.01 * hh)). { rewrite <- (Rabs_pos_eq (t * t)) by apply Rle_0_sqr. rewrite Rabs_mult. pose proof (Rabs_pos t). apply Rmult_le_compat; lra. }
  assert (S2 : (A + 1.01 * hh) * (A + 1.01 * hh) <= 2 * (A * A) + 2.05 * (hh * hh)). { pose proof (Rle_0_sqr (A - 1.01 * hh)) as Q. unfold Rsqr in Q. assert (0 <= hh * hh) by (apply Rmult_le_pos; lra). lra. } assert (HH : hh * hh <= / 10 ^ 9 * hh) by (apply Rmult_le_compat_r; lra).
  assert (ET : Rabs (50 * e28 * t) <= 0.001 * hh). { rewrite Rabs_mult, Rabs_pos_eq by lra. apply Rle_trans with (50 * e28 * / 10 ^ 4); [apply Rmult_le_compat_l; lra|lra]. }
  apply Rabs_def2' in ET. apply Rabs_def2' in X3. apply Rabs_le. split; lra.
Qed.
Lemma settle k : forall x t, v x = c * (1 + t) -> Rabs t <= / 10 ^ 40 + 1.01 * hh -> exists x' t', cbrt_loop L k self x = Ok (Some x') /\ v x' = c * (1 + t') /\ Rabs t' <= / 10 ^ 40 + 1.01 * hh.
Proof.
  induction k as [|k IH]; intros x t Hx Ht; [exists x, t; split; [reflexivity|split; assumption]|].
  destruct (square1 k x t (/ 10 ^ 40) (/ 10 ^ 40) Hx Ht) as (x1 & t1 & A1 & A2 & A3); try lra. destruct (IH x1 t1 A2 A3) as (x' & t' & B1 & B2 & B3). exists x', t'. split; [rewrite A1; exact B1|split; assumption].
Qed.
Lemma near_phase k x t : v x = c * (1 + t) -> - / 10 ^ 8 <= t <= 3 * / 10 ^ 6 -> exists x', cbrt_loop L (S (S (S k))) self x = Ok (Some x') /\ Rabs (v x' - c) <= e28 * (4 + J + 60 * c).
Proof.
  intros Hx Ht. pose proof hh_range as [H1 H2]. assert (E : 0 < e28) by (rewrite e28_is; lra). assert (C0 : 0 < c) by lra.
  destruct (square1 (S (S k)) x t (3 * / 10 ^ 6) (2 * / 10 ^ 11) Hx) as (x1 & t1 & A1 & A2 & A3); [apply Rabs_le; lra|lra|lra|]. rewrite A1.
  destruct (square1 (S k) x1 t1 _ (/ 10 ^ 21) A2 A3) as (x2 & t2 & B1 & B2 & B3); [lra|lra|]. rewrite B1.
  destruct (square1 k x2 t2 _ (/ 10 ^ 40) B2 B3) as (x3 & t3 & C1 & C2 & C3); [lra|lra|]. rewrite C1.
  destruct (settle k x3 t3 C2 C3) as (x' & t' & D1 & D2 & D3). exists x'. split; [exact D1|]. rewrite D2. replace (c * (1 + t') - c) with (c * t') by ring. rewrite Rabs_mult, (Rabs_pos_eq c) by lra.
  apply Rle_trans with (c * (/ 10 ^ 40 + 1.01 * hh)); [apply Rmult_le_compat_l; lra|]. unfold hh. assert (CJ : c * J = 1) by (apply Rinv_r; lra). pose proof J_range as [J0 _].
  replace (c * (/ 10 ^ 40 + 1.01 * (3 * e28 * J + 0.5 * e28 * (J * J) + 51 * e28))) with (/ 10 ^ 40 * c + 1.01 * (3 * e28 * (c * J) + 0.5 * e28 * J * (c * J) + 51 * e28 * c)) by ring. rewrite CJ.
  assert (P1 : 0 <= e28 * J) by (apply Rmult_le_pos; lra). assert (P2 : 0 <= e28 * c) by (apply Rmult_le_pos; lra). assert (P3 : / 10 ^ 40 * c <= e28 * c) by (apply Rmult_le_compat_r; [lra|rewrite e28_is; lra]). lra.
Qed.
Lemma p90 : 0.667 ^ 90 <= 0.5 * / 10 ^ 15.
Proof.
  change 90%nat with (10 * 9)%nat. rewrite pow_mult. assert (A : 0 <= 0.667 ^ 10 <= 0.0175) by lra. apply Rle_trans with (0.0175 ^ 9); [apply pow_incr; exact A|lra].
Qed.
Lemma first k : c * c * c <= 10 ^ 14 -> exists x t, cbrt_loop L (S k) self (ONE L) = cbrt_loop L k self x /\ v x = c * (1 + t) /\ - / 10 ^ 8 <= t <= 3 * 10 ^ 9 /\ v x <= 3.4 * 10 ^ 13.
Proof.
  intros Hm. assert (C0 : 0 < c) by lra. set (a := c * c * c) in *. assert (A0 : 0 < a) by (unfold a; apply Rmult_lt_0_compat; [apply Rmult_lt_0_compat|]; exact C0). cbn [cbrt_loop].
  pose proof (one_val L value EX) as V1. pose proof (v_two L value EX) as V2. pose proof third as TH. assert (E : 0 < e28 <= / 10 ^ 27) by (rewrite e28_is; lra).
  assert (X1 : exists xx, d_mul L (ONE L) (ONE L) = Some xx /\ (value xx == 1)%Q).
  { destruct (computes_exact value _ _ (ed_mul _ _ EX (ONE L) (ONE L))) as (z & Z1 & Z2); [apply (rep_comp (inject_Z 1)); [rewrite V1; reflexivity|apply int_rep; reflexivity]|]. exists z. split; [exact Z1|]. rewrite Z2, V1. reflexivity. }
  destruct X1 as (xx & X1 & X2). rewrite X1. cbn [ask].
  assert (W1 : v (ONE L) = 1) by (apply (v_one L value EX)).
  destruct (mulr (TWO L) (ONE L)) as (x2 & B1 & B2); [rewrite V2, W1, Rabs_pos_eq; lra|]. rewrite V2, W1 in B2. rewrite (Rabs_pos_eq (2 * 1)) in B2 by lra. rewrite B1. cbn [ask].
  assert (Q1 : exists q, d_div L self xx = Some q /\ v q = a).
  { assert (NZ : ~ (value xx == 0)%Q) by (rewrite X2; discriminate). destruct (computes_exact value _ _ (ed_div _ _ EX self xx NZ)) as (z & Z1 & Z2); [apply (rep_comp (value self)); [rewrite X2; field|apply (ed_representable _ _ EX)]|].
    exists z. split; [exact Z1|]. transitivity (v self); [|exact Ha]. apply Qeq_eqR. rewrite Z2, X2. field. }
  destruct Q1 as (q & Q1 & Q2). rewrite Q1. cbn [ask]. pose proof (Rabs_def2' _ _ B2) as B3.
  destruct (addr q x2) as (b & F1 & F2); [rewrite Q2, Rabs_pos_eq; lra|]. rewrite Q2, (Rabs_pos_eq (a + v x2)) in F2 by lra. rewrite F1. cbn [ask].
  assert (EA : 0 <= e28 * a <= / 10 ^ 27 * a) by (split; [apply Rmult_le_pos; lra|apply Rmult_le_compat_r; lra]). assert (E2 : e28 * v x2 <= e28 * 2.1) by (apply Rmult_le_compat_l; lra).
  assert (F3 : Rabs (v b - (a + 2)) <= e28 * (60 + 10 * a)). { replace (v b - (a + 2)) with ((v b - (a + v x2)) + (v x2 - 2 * 1)) by ring. eapply Rle_trans; [apply Rabs_triang|]. lra. }
  pose proof (Rabs_def2' _ _ F3) as F4. apply Rabs_def2' in TH. assert (BB : 0 <= v b <= 1.1 * (a + 2)) by lra.
  assert (BT : 0 <= v b * v (ONE_FRACT_3 L) <= 0.4 * (a + 2)). { split; [apply Rmult_le_pos; lra|]. apply Rle_trans with (1.1 * (a + 2) * (0.35)); [apply Rmult_le_compat; lra|lra]. }
  destruct (mulr b (ONE_FRACT_3 L)) as (x' & K1 & K2); [rewrite Rabs_pos_eq; lra|]. rewrite (Rabs_pos_eq (v b * v (ONE_FRACT_3 L))) in K2 by lra. rewrite K1. cbn [ask].
  assert (EB : e28 * (v b * v (ONE_FRACT_3 L)) <= e28 * (0.4 * (a + 2))) by (apply Rmult_le_compat_l; lra). assert (T3 : - (e28 * (1.1 * (a + 2))) <= v b * (v (ONE_FRACT_3 L) - / 3) <= e28 * (1.1 * (a + 2))).
  { apply Rabs_def2'. rewrite Rabs_mult, (Rabs_pos_eq (v b)), Rmult_comm by lra. apply Rmult_le_compat; try apply Rabs_pos; try lra. apply Rabs_le. lra. }
  apply Rabs_def2' in K2. assert (X5 : - (e28 * (60 + 20 * a)) <= v x' - (a + 2) / 3 <= e28 * (60 + 20 * a)) by lra.
  assert (AG : c <= (a + 2) / 3). { assert (0 <= (c - 1) * (c - 1) * (c + 2)) by (apply Rmult_le_pos; [apply Rle_0_sqr|lra]). unfold a. lra. }
  pose proof J_range as [J0 J1]. assert (CJ : c * J = 1) by (apply Rinv_r; lra). exists x', (v x' * J - 1). split; [reflexivity|]. split; [field; lra|].
  assert (AJ : a * J = c * c) by (unfold a; rewrite (Rmult_assoc (c * c)), CJ; ring).
  split; [|lra]. split.
  - assert (c * J <= ((a + 2) / 3) * J) by (apply Rmult_le_compat_r; lra). assert (e28 * (60 + 20 * a) <= / 10 ^ 9 * c). { 
      assert (60 * e28 <= / 10 ^ 18 * 0.4 * / 10 ^ 1) by lra. assert (20 * (e28 * a) <= 0.1 * / 10 ^ 9 * c). { unfold a. assert (c * c <= 100000 * 100000) by (apply Rmult_le_compat; lra). assert (0 <= c * c) by (apply Rmult_le_pos; lra). assert (e28 * (c * c) <= / 10 ^ 27 * (100000 * 100000)) by (apply Rmult_le_compat; lra). replace (20 * (e28 * (c * c * c))) with (20 * (e28 * (c * c)) * c) by ring. apply Rmult_le_compat_r; lra. } lra. }
    assert (((a + 2) / 3 - / 10 ^ 9 * c) * J <= v x' * J) by (apply Rmult_le_compat_r; lra). assert (((a + 2) / 3 - / 10 ^ 9 * c) * J = (a + 2) / 3 * J - / 10 ^ 9 * (c * J)) by ring. rewrite CJ in *. lra.
  - assert (v x' <= 0.35 * a + 0.7) by lra. assert (v x' * J <= (0.35 * a + 0.7) * J) by (apply Rmult_le_compat_r; lra). assert (E5 : (0.35 * a + 0.7) * J = 0.35 * (a * J) + 0.7 * J) by ring. rewrite AJ in E5.
    assert (CC : c * c <= 2.2 * 10 ^ 9). { destruct (Rle_dec (c * c) (2.2 * 10 ^ 9)) as [P|P]; [exact P|]. exfalso. assert (46900 < c). { destruct (Rlt_le_dec 46900 c) as [N|N]; [exact N|]. exfalso. assert (c * c <= 46900 * 46900) by (apply Rmult_le_compat; lra). lra. } assert (46900 * (2.2 * 10 ^ 9) < c * (c * c)) by (apply Rmult_le_0_lt_compat; lra). unfold a in Hm. lra. } lra.
Qed.
Lemma cbrt_near : c * c * c <= 10 ^ 14 -> exists y, cbrt_loop L TAYLOR self (ONE L) = Ok (Some y) /\ Rabs (v y - c) <= e28 * (4 + J + 60 * c).
Proof.
  intros Hm. assert (C0 : 0 < c) by lra. change TAYLOR with (S (90 + S (S (S 6)))). destruct (first (90 + S (S (S 6))) Hm) as (x & t & A1 & A2 & A3 & A4). rewrite A1. set (T := Rmax 0 t).
  assert (T0 : 0 <= T) by apply Rmax_l. assert (T1 : t <= T) by apply Rmax_r. assert (T2 : T <= 3 * 10 ^ 9) by (unfold T; apply Rmax_lub; lra).
  assert (T3 : c * (1 + T) <= 9.8 * 10 ^ 13). { unfold T, Rmax. destruct (Rle_dec 0 t); [rewrite <- A2; lra|lra]. }
  destruct (linear 90 (S (S (S 6))) x t T A2 ltac:(lra) ltac:(lra) T3) as (x1 & t1 & B1 & B2 & B3). rewrite B1. apply (near_phase 6 x1 t1 B2). pose proof p90 as P. assert (P0 : 0 < 0.667 ^ 90) by (apply pow_lt; lra). set (p := 0.667 ^ 90) in *. clearbody p.
  assert (T * p <= 3 * 10 ^ 9 * (0.5 * / 10 ^ 15)) by (apply Rmult_le_compat; lra). lra.
Qed.
End Root.
End Real.
