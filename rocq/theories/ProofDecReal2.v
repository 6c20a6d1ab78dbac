(** * The decimal trigonometric functions and the real ones *)
From Coq Require Import List NArith ZArith QArith Qabs Qround Qreals Reals Bool Lia Lra String.
From Verif Require Import ModelBase ModelContext ModelText ModelDefault ModelFloat ModelNum ModelOps ModelDecimal
  SpecText SpecExpr SpecOps SpecDecimal ProofText ProofDefault ProofBuild ProofCtx ProofDecimal ProofDecimal2 ProofDecTrig ProofReals ProofDecReal.
Import ListNotations.
Local Open Scope R_scope.

Lemma Rabs_def2' x a : Rabs x <= a -> - a <= x <= a.
Proof. unfold Rabs. destruct (Rcase_abs x); lra. Qed.
Section Real.
Context {D : Type}.
Variable L : dlib D.
Variable value : D -> Q.
Hypothesis EX : exact_decimals L value.
Notation v := (ProofDecReal.v value).

Lemma some_good y i s : v y = IZR i -> Rabs (IZR i - s) <= 1.1 * / 10 ^ 16 -> exists z, some y = Ok (Some z) /\ good (v z) s.
Proof. intros E H. exists y. split; [reflexivity|]. rewrite E. apply good_int. exact H. Qed.
Lemma pi_b : Rabs (PI - IZR 31415926535897932384626433833 / 10 ^ 28) <= / 10 ^ 28.
Proof. replace (IZR 31415926535897932384626433833 / 10 ^ 28) with (Q2R PI_hat); [exact PI_enclosed|]. unfold PI_hat, Q2R. cbn [Qnum Qden]. lra. Qed.
Lemma at_sin a t i : Rabs (a - t) <= 1.02 * / 10 ^ 16 -> sin t = IZR i -> Rabs (IZR i - sin a) <= 1.1 * / 10 ^ 16.
Proof. intros H E. rewrite <- E, Rabs_minus_sym. eapply Rle_trans; [apply sin_lip|]. lra. Qed.
Lemma at_cos a t i : Rabs (a - t) <= 1.02 * / 10 ^ 16 -> cos t = IZR i -> Rabs (IZR i - cos a) <= 1.1 * / 10 ^ 16.
Proof. intros H E. rewrite <- E, Rabs_minus_sym. eapply Rle_trans; [apply cos_lip|]. lra. Qed.
Ltac near_pi H := let P := fresh in pose proof pi_b as P; apply Rabs_le; apply Rlt_le in H; apply Rabs_def2' in H; apply Rabs_def2' in P; lra.
Lemma sin_good x : exists y, checked_sin L x = Ok (Some y) /\ exists r, good (v y) (sin r) /\ Rabs (sin r - sin (v x)) <= Rabs (v x) * / 10 ^ 28.
Proof.
  unfold checked_sin. destruct (reduce L value EX x) as (r & k & -> & R2 & R3 & R4). cbn [must].
  destruct (reduced value x r k R2 R4) as [Hs _].
  cut (exists y, (if d_eq L r (ZERO L) then some (ZERO L) else approx_eq L (d_abs L r) (cPI L) (PRECISION L) (fun b => if b then some (ZERO L) else approx_eq L (d_abs L r) (PI_2 L) (PRECISION L)
    (fun b => if b then some (ZERO L) else approx_eq L r (PI_FRACT_2 L) (PRECISION L) (fun b => if b then some (ONE L) else
    approx_eq L r (PI_3_FRACT_2 L) (PRECISION L) (fun b => if b then some (ONE_MINUS L) else
    approx_eq L (d_abs L r) (PI_FRACT_2 L) (PRECISION L) (fun b => if b then some (ONE_MINUS L) else
    must (d_mul L r r) (fun xx => ModelDecimal.call (sin_series L 99 1 xx r r) (approx L)))))))) = Ok (Some y) /\ good (v y) (sin (v r))).
  { intros (y & Y1 & Y2). exists y. split; [exact Y1|]. exists (v r). split; assumption. }
  assert (V0 : v (ZERO L) = IZR 0) by apply (v_zero L value EX). assert (V1 : v (ONE L) = IZR 1) by apply (v_one L value EX).
  assert (Vm : v (ONE_MINUS L) = IZR (-1)) by (apply (v_int L value EX); reflexivity).
  assert (Va : v (d_abs L r) = Rabs (v r)) by apply (v_abs L value EX). assert (Ra : Rabs (v (d_abs L r)) <= 10) by (rewrite Va, Rabs_Rabsolu; lra). assert (Rb : Rabs (v r) <= 10) by lra.
  destruct (d_eq L r (ZERO L)) eqn:B0.
  { apply (some_good _ 0 _ V0). rewrite (d_eq_iff L value EX), <- v_eq, V0 in B0. rewrite B0, sin_0, Rminus_0_r, Rabs_R0. lra. }
  unfold cPI, PI_2, PI_FRACT_2, PI_3_FRACT_2.
  edestruct (eq_near L value EX (d_abs L r)) as (b1 & -> & H1 & H1'); [reflexivity|exact Ra|]. destruct b1.
  { specialize (H1 eq_refl). rewrite Va in H1. apply (some_good _ 0 _ V0). destruct (Rcase_abs (v r)) as [N|N].
    - rewrite (Rabs_left _ N) in H1. apply (at_sin _ (- PI)); [near_pi H1|]. rewrite sin_neg, sin_PI. lra.
    - rewrite (Rabs_right _ N) in H1. apply (at_sin _ PI); [near_pi H1|]. apply sin_PI. }
  edestruct (eq_near L value EX (d_abs L r)) as (b1 & -> & H2 & H2'); [reflexivity|exact Ra|]. destruct b1.
  { specialize (H2 eq_refl). rewrite Va in H2. apply (some_good _ 0 _ V0). destruct (Rcase_abs (v r)) as [N|N].
    - rewrite (Rabs_left _ N) in H2. apply (at_sin _ (- (2 * PI))); [near_pi H2|]. rewrite sin_neg, sin_2PI. lra.
    - rewrite (Rabs_right _ N) in H2. apply (at_sin _ (2 * PI)); [near_pi H2|]. apply sin_2PI. }
  edestruct (eq_near L value EX r) as (b1 & -> & H3 & H3'); [reflexivity|exact Rb|]. destruct b1.
  { specialize (H3 eq_refl). apply (some_good _ 1 _ V1). apply (at_sin _ (PI / 2)); [near_pi H3|]. apply sin_PI2. }
  edestruct (eq_near L value EX r) as (b1 & -> & H4 & H4'); [reflexivity|exact Rb|]. destruct b1.
  { specialize (H4 eq_refl). apply (some_good _ (-1) _ Vm). apply (at_sin _ (3 * (PI / 2))); [near_pi H4|]. apply sin_3PI2. }
  edestruct (eq_near L value EX (d_abs L r)) as (b1 & -> & H5 & H5'); [reflexivity|exact Ra|]. destruct b1.
  { specialize (H5 eq_refl). rewrite Va in H5. apply (some_good _ (-1) _ Vm). destruct (Rcase_abs (v r)) as [N|N].
    - rewrite (Rabs_left _ N) in H5. apply (at_sin _ (- (PI / 2))); [near_pi H5|]. rewrite sin_neg, sin_PI2. reflexivity.
    - exfalso. rewrite (Rabs_right _ N) in H5. pose proof (H3' eq_refl) as A. unfold Rabs in A, H5. destruct (Rcase_abs _) in A; destruct (Rcase_abs _) in H5; lra. }
  destruct (square_near L value EX r R3) as (xx & -> & X1 & X2). cbn [must]. destruct (sin_sum_near L value EX r xx R3 X1 X2) as (s & -> & S1). cbn [ModelDecimal.call]. apply (good_approx L value EX). exact S1.
Qed.
Lemma cos_good x : exists y, checked_cos L x = Ok (Some y) /\ exists r, good (v y) (cos r) /\ Rabs (cos r - cos (v x)) <= Rabs (v x) * / 10 ^ 28.
Proof.
  unfold checked_cos. destruct (reduce L value EX x) as (r & k & -> & R2 & R3 & R4). cbn [must].
  destruct (reduced value x r k R2 R4) as [_ Hs].
  cut (exists y, (if is_zero L r then some (ONE L) else approx_eq L r (PI_FRACT_2 L) (PRECISION L) (fun b => if b then some (ZERO L) else
    must (d_mul L r r) (fun xx => must (d_div L (d_neg L xx) (TWO L)) (fun f => must (d_add L (ONE L) f) (fun g => ModelDecimal.call (cos_series L 98 2 xx f g) (approx L)))))) = Ok (Some y) /\ good (v y) (cos (v r))).
  { intros (y & Y1 & Y2). exists y. split; [exact Y1|]. exists (v r). split; assumption. }
  assert (V0 : v (ZERO L) = IZR 0) by apply (v_zero L value EX). assert (V1 : v (ONE L) = IZR 1) by apply (v_one L value EX). pose proof (v_two L value EX) as V2.
  assert (Rb : Rabs (v r) <= 10) by lra.
  destruct (is_zero L r) eqn:B0.
  { apply (some_good _ 1 _ V1). rewrite (is_zero_iff L value EX) in B0. assert (v r = 0) as -> by (unfold ProofDecReal.v; rewrite (Qeq_eqR _ _ B0); apply Q2R_0). rewrite cos_0, Rminus_diag_eq, Rabs_R0 by reflexivity. lra. }
  unfold PI_FRACT_2. edestruct (eq_near L value EX r) as (b1 & -> & H3 & _); [reflexivity|exact Rb|]. destruct b1.
  { specialize (H3 eq_refl). apply (some_good _ 0 _ V0). apply (at_cos _ (PI / 2)); [near_pi H3|]. apply cos_PI2. }
  destruct (square_near L value EX r R3) as (xx & -> & X1 & X2). cbn [must].
  assert (U : 0 < u < / 10 ^ 25) by (unfold u; lra).
  assert (NZ : ~ (value (TWO L) == 0)%Q) by (apply v_nz; rewrite V2; lra).
  assert (Eq : Q2R (value (d_neg L xx) / value (TWO L)) = - (v xx / 2)).
  { rewrite Q2R_div by exact NZ. change (v (d_neg L xx) / v (TWO L) = - (v xx / 2)). rewrite (v_neg L value EX), V2. field. }
  apply Rabs_def2' in X1. pose proof X1 as X1'. assert (Xb : 0 - / 10 ^ 25 <= v xx <= 41) by lra.
  destruct (near26 value _ _ (ed_div _ _ EX (d_neg L xx) (TWO L) NZ)) as (f & F1 & F2); [rewrite Eq; apply Rabs_le; lra|]. rewrite Eq in F2. fold u in F2. unfold d_div. rewrite F1. cbn [must].
  pose proof (Rabs_def2' _ _ F2) as F2'.
  destruct (near26 value _ _ (ed_add _ _ EX (ONE L) f)) as (g & G1 & G2); [rewrite Q2R_plus; change (Rabs (v (ONE L) + v f) <= 390); rewrite V1; apply Rabs_le; lra|].
  rewrite Q2R_plus in G2. change (Rabs (v g - (v (ONE L) + v f)) <= u) in G2. rewrite V1 in G2. unfold d_add. rewrite G1. cbn [must].
  destruct (cos_sum_near L value EX r xx f g R3) as (s & -> & S1); [apply Rabs_le; exact X1|exact X2|exact F2|exact G2|]. cbn [ModelDecimal.call]. apply (good_approx L value EX). exact S1.
Qed.

(** ** Degrees *)
Lemma near21 q r : computes value q r -> Rabs (Q2R q) <= 39000000 -> exists z, r = Some z /\ Rabs (v z - Q2R q) <= / 10 ^ 21.
Proof. intros H Hq. destruct (near value 21 39000000 q r ltac:(lia) ltac:(reflexivity) ltac:(lia) H Hq) as (z & E & Z). exists z. split; [exact E|]. rewrite pow_IZR. exact Z. Qed.
Lemma radians x : Rabs (v x) <= 10 ^ 9 -> exists y z, to_radians L x = Ok (Some z) /\ approx L y = Ok (Some z) /\ Rabs (v y - v x * PI / 180) <= 1.1 * / 10 ^ 19.
Proof.
  intros Hx. unfold to_radians. assert (Vp : v (cPI L) = IZR 31415926535897932384626433833 / 10 ^ 28) by (apply (v_lit28 L value EX); reflexivity).
  assert (V180 : v (int L 180) = 180) by (apply (v_int L value EX); reflexivity). assert (NZ : ~ (value (int L 180) == 0)%Q) by (apply v_nz; rewrite V180; lra).
  assert (Eq : Q2R (value (cPI L) / value (int L 180)) = v (cPI L) / 180). { rewrite Q2R_div by exact NZ. change (v (cPI L) / v (int L 180) = v (cPI L) / 180). rewrite V180. reflexivity. }
  pose proof (Rabs_def2' _ _ pi_b) as P. rewrite <- Vp in P. assert (Pb : 3.14 < v (cPI L) < 3.15) by (rewrite Vp; lra). clear Vp.
  destruct (near28 value _ _ (ed_div _ _ EX (cPI L) (int L 180) NZ)) as (c & C1 & C2); [rewrite Eq; apply Rabs_le; lra|]. rewrite Eq in C2. apply Rabs_def2' in C2. unfold d_div. rewrite C1. cbn [must].
  assert (Cd : - (1.01 * / 10 ^ 28) <= v c - PI / 180 <= 1.01 * / 10 ^ 28) by lra.
  assert (Cb : 0.017 <= v c <= 0.018) by lra.
  destruct (near21 _ _ (ed_mul _ _ EX x c)) as (y & Y1 & Y2).
  { rewrite Q2R_mult. change (Rabs (v x * v c) <= 39000000). rewrite Rabs_mult, (Rabs_pos_eq (v c)) by lra. pose proof (Rabs_pos (v x)). nra. }
  rewrite Q2R_mult in Y2. change (Rabs (v y - v x * v c) <= / 10 ^ 21) in Y2. unfold d_mul. rewrite Y1. cbn [must].
  destruct (approx_near L value EX y) as (z & Z1 & _). exists y, z. split; [exact Z1|]. split; [exact Z1|].
  replace (v y - v x * PI / 180) with ((v y - v x * v c) + v x * (v c - PI / 180)) by field. eapply Rle_trans; [apply Rabs_triang|]. rewrite Rabs_mult.
  apply Rle_trans with (/ 10 ^ 21 + 10 ^ 9 * (1.01 * / 10 ^ 28)); [|lra]. apply Rplus_le_compat; [exact Y2|]. apply Rmult_le_compat; try apply Rabs_pos; [exact Hx|apply Rabs_le; exact Cd].
Qed.
Lemma radians_near x : Rabs (v x) <= 10 ^ 9 -> exists z, to_radians L x = Ok (Some z) /\ Rabs (v z - v x * PI / 180) <= 1.01 * / 10 ^ 16 /\ Rabs (v z) <= 20000000.
Proof.
  intros Hx. destruct (radians x Hx) as (y & z & Z1 & Z2 & Z3). exists z. split; [exact Z1|]. destruct (approx_near L value EX y) as (z' & A1 & A2 & _). rewrite Z2 in A1. injection A1 as <-.
  assert (N : Rabs (v z - v x * PI / 180) <= 1.01 * / 10 ^ 16).
  { replace (v z - v x * PI / 180) with ((v z - v y) + (v y - v x * PI / 180)) by ring. eapply Rle_trans; [apply Rabs_triang|]. lra. }
  split; [exact N|]. pose proof (Rabs_def2' _ _ pi_b) as P. apply Rabs_def2' in N. apply Rabs_def2' in Hx. apply Rabs_le. nra.
Qed.
Lemma sin_degrees x : Rabs (v x) <= 10 ^ 9 -> exists y, ModelDecimal.call (to_radians L x) (checked_sin L) = Ok (Some y) /\ Rabs (v y - sin (v x * PI / 180)) <= 2.2 * / 10 ^ 16.
Proof.
  intros Hx. destruct (radians_near x Hx) as (z & -> & Z1 & Z2). cbn [ModelDecimal.call]. destruct (sin_good z) as (y & -> & r & (G1 & _) & G2). exists y. split; [reflexivity|].
  pose proof (sin_lip (v z) (v x * PI / 180)) as Lp.
  replace (v y - sin (v x * PI / 180)) with ((v y - sin r) + ((sin r - sin (v z)) + (sin (v z) - sin (v x * PI / 180)))) by ring. eapply Rle_trans; [apply Rabs_triang|]. 
  pose proof (Rabs_triang (sin r - sin (v z)) (sin (v z) - sin (v x * PI / 180))). lra.
Qed.
Lemma cos_degrees x : Rabs (v x) <= 10 ^ 9 -> exists y, ModelDecimal.call (to_radians L x) (checked_cos L) = Ok (Some y) /\ Rabs (v y - cos (v x * PI / 180)) <= 2.2 * / 10 ^ 16.
Proof.
  intros Hx. destruct (radians_near x Hx) as (z & -> & Z1 & Z2). cbn [ModelDecimal.call]. destruct (cos_good z) as (y & -> & r & (G1 & _) & G2). exists y. split; [reflexivity|].
  pose proof (cos_lip (v z) (v x * PI / 180)) as Lp.
  replace (v y - cos (v x * PI / 180)) with ((v y - cos r) + ((cos r - cos (v z)) + (cos (v z) - cos (v x * PI / 180)))) by ring. eapply Rle_trans; [apply Rabs_triang|]. 
  pose proof (Rabs_triang (cos r - cos (v z)) (cos (v z) - cos (v x * PI / 180))). lra.
Qed.

(** ** Right angles *)
Definition quarter : Z := 31415926535897932384626433833.
Definition whole : Z := 20000000000000000000000000000.
Definition far (r : Z) : bool := (20000000000000000000 <? r)%Z && (r <? 19999999980000000000000000000)%Z.
Definition far_step (s : Z * bool) : Z * bool := let r := (fst s + (quarter - whole))%Z in let r' := if (whole <=? r)%Z then (r - whole)%Z else r in (r', snd s && far r').
Lemma far_run n : snd (Pos.iter far_step (0%Z, true) n) = true -> forall k, (1 <= k <= Z.pos n)%Z -> far ((k * quarter) mod whole)%Z = true.
Proof.
  assert (St : forall k s, fst s = ((k * quarter) mod whole)%Z -> fst (far_step s) = (((k + 1) * quarter) mod whole)%Z).
  { intros k s E. unfold far_step. cbn [fst]. rewrite E. pose proof (Z.mod_pos_bound (k * quarter) whole ltac:(reflexivity)) as B. pose proof (Z.div_mod (k * quarter) whole ltac:(discriminate)) as DM.
    set (m := ((k * quarter) mod whole)%Z) in *. set (d := (k * quarter / whole)%Z) in *. destruct (whole <=? m + (quarter - whole))%Z eqn:C.
    - apply (Z.mod_unique _ _ (d + 2)); [left|]; unfold whole, quarter in *; lia.
    - apply (Z.mod_unique _ _ (d + 1)); [left|]; unfold whole, quarter in *; lia. }
  assert (I : fst (Pos.iter far_step (0%Z, true) n) = ((Z.pos n * quarter) mod whole)%Z /\ (snd (Pos.iter far_step (0%Z, true) n) = true -> forall k, (1 <= k <= Z.pos n)%Z -> far ((k * quarter) mod whole)%Z = true)).
  { induction n as [|n [IH1 IH2]] using Pos.peano_ind.
    - split; [vm_compute; reflexivity|]. intros H k Hk. assert (k = 1)%Z by lia. subst. vm_compute. reflexivity.
    - rewrite Pos.iter_succ. pose proof (St _ _ IH1) as E. split; [rewrite E; f_equal; lia|]. intros H k Hk.
      assert (S2 : snd (far_step (Pos.iter far_step (0%Z, true) n)) = snd (Pos.iter far_step (0%Z, true) n) && far (fst (far_step (Pos.iter far_step (0%Z, true) n)))) by reflexivity.
      rewrite S2, E in H. apply andb_true_iff in H. destruct H as [H1 H2]. destruct (Z.eq_dec k (Z.pos n + 1)) as [->|]; [exact H2|]. apply IH2; [exact H1|lia]. }
  destruct I as [_ I]. exact I.
Qed.
Lemma far_all k : (1 <= k <= 111111)%Z -> far ((k * quarter) mod whole)%Z = true.
Proof. apply far_run. vm_cast_no_check (eq_refl true). Qed.
Lemma quarter_far k j : (1 <= Z.abs k <= 111111)%Z -> / 10 ^ 10 <= Rabs (IZR k * (PI / 2) - IZR j).
Proof.
  assert (G : forall k j, (1 <= k <= 111111)%Z -> / 10 ^ 10 <= Rabs (IZR k * (PI / 2) - IZR j)).
  { clear. intros k j Hk. pose proof (far_all k Hk) as F. unfold far in F. apply andb_true_iff in F. destruct F as [F1 F2]. apply Z.ltb_lt in F1, F2.
    pose proof (Z.div_mod (k * quarter) whole ltac:(discriminate)) as DM. set (m := ((k * quarter) mod whole)%Z) in *. set (d := (k * quarter / whole)%Z) in *.
    assert (A : (k * quarter - j * whole >= 20000000000000000000 \/ k * quarter - j * whole <= -20000000000000000000)%Z).
    { destruct (Z_le_gt_dec j d); [left|right]; unfold whole in *; lia. }
    pose proof (Rabs_def2' _ _ pi_b) as P. fold quarter in P. set (p := IZR quarter / 10 ^ 28) in *.
    assert (E : IZR (k * quarter - j * whole) / 10 ^ 28 = IZR k * p - 2 * IZR j). { unfold p. rewrite minus_IZR, !mult_IZR. unfold whole. lra. }
    assert (K : 1 <= IZR k <= 111111) by (split; apply IZR_le; lia).
    assert (Kp : - (111111 * / 10 ^ 28) <= IZR k * (PI - p) <= 111111 * / 10 ^ 28) by (split; nra).
    destruct A as [A|A].
    - apply Z.ge_le in A. apply IZR_le in A. rewrite Rabs_pos_eq; [|]; replace (IZR k * (PI / 2) - IZR j) with ((IZR k * p - 2 * IZR j) / 2 + IZR k * (PI - p) / 2) by field; rewrite <- E; lra.
    - apply IZR_le in A. rewrite Rabs_left1; [|]; replace (IZR k * (PI / 2) - IZR j) with ((IZR k * p - 2 * IZR j) / 2 + IZR k * (PI - p) / 2) by field; rewrite <- E; lra. }
  intros Hk. destruct (Z_le_gt_dec 0 k) as [N|N]; [apply G; lia|]. replace (IZR k * (PI / 2) - IZR j) with (- (IZR (- k) * (PI / 2) - IZR (- j))) by (rewrite !opp_IZR; ring). rewrite Rabs_Ropp. apply G. lia.
Qed.
(** The sine of [k] right angles. *)
Definition turns_sin (k : Z) : Z := match (k mod 4)%Z with 1%Z => 1 | 3%Z => -1 | _ => 0 end%Z.
Lemma sin_turns k : sin (IZR k * (PI / 2)) = IZR (turns_sin k).
Proof.
  pose proof (Z.div_mod k 4 ltac:(lia)) as DM. pose proof (Z.mod_pos_bound k 4 ltac:(lia)) as B. unfold turns_sin. set (m := (k / 4)%Z) in *. set (i := (k mod 4)%Z) in *. rewrite DM.
  replace (IZR (4 * m + i) * (PI / 2)) with (IZR i * (PI / 2) + 2 * IZR m * PI) by (rewrite plus_IZR, mult_IZR; field). rewrite sin_period_Z.
  assert (C : (i = 0 \/ i = 1 \/ i = 2 \/ i = 3)%Z) by lia. destruct C as [->|[->|[->| ->]]].
  - rewrite Rmult_0_l. apply sin_0. - rewrite Rmult_1_l. apply sin_PI2. - replace (2 * (PI / 2)) with PI by field. apply sin_PI. - apply sin_3PI2.
Qed.
Lemma cos_turns k : cos (IZR k * (PI / 2)) = IZR (turns_sin (k + 1)).
Proof. rewrite <- sin_turns, plus_IZR, cos_sin. f_equal. field. Qed.
Lemma right_angles x k : v x = 90 * IZR k -> (Z.abs k <= 111111)%Z -> exists z, to_radians L x = Ok (Some z) /\ Rabs (v z - IZR k * (PI / 2)) <= 1.1 * / 10 ^ 19 /\ Rabs (v z) <= 200000.
Proof.
  intros E Hk. assert (K : Rabs (IZR k) <= 111111) by (rewrite <- abs_IZR; apply IZR_le; exact Hk).
  destruct (radians x) as (y & z & Z1 & Z2 & Z3); [rewrite E, Rabs_mult, (Rabs_pos_eq 90) by lra; lra|].
  replace (v x * PI / 180) with (IZR k * (PI / 2)) in Z3 by (rewrite E; field). exists z. split; [exact Z1|].
  destruct (approx_near L value EX y) as (z' & A1 & A2 & A3 & A4). rewrite Z2 in A1. injection A1 as <-.
  assert (N : Rabs (v z - IZR k * (PI / 2)) <= 1.1 * / 10 ^ 19).
  { destruct (Z.eq_dec k 0) as [->|Nk].
    - rewrite Rmult_0_l in *. rewrite (A3 0%Z); [rewrite Rminus_diag_eq, Rabs_R0 by reflexivity; lra|]. lra.
    - destruct A4 as [->|(j & J)]; [exact Z3|exfalso]. pose proof (quarter_far k j ltac:(lia)) as Q. rewrite J in A2.
      replace (IZR k * (PI / 2) - IZR j) with (- ((IZR j - v y) + (v y - IZR k * (PI / 2)))) in Q by ring. rewrite Rabs_Ropp in Q.
      pose proof (Rabs_triang (IZR j - v y) (v y - IZR k * (PI / 2))). lra. }
  split; [exact N|]. pose proof (Rabs_def2' _ _ pi_b) as P. apply Rabs_def2' in N. apply Rabs_def2' in K. apply Rabs_le. nra.
Qed.
Lemma good_at y s j d : good y s -> Rabs (s - IZR j) <= d -> d <= 0.9 * / 10 ^ 16 -> y = IZR j.
Proof. intros [_ G] H Hd. apply G. lra. Qed.
Lemma sin_right x k : v x = 90 * IZR k -> (Z.abs k <= 111111)%Z -> exists z y, to_radians L x = Ok (Some z) /\ checked_sin L z = Ok (Some y) /\ v y = IZR (turns_sin k).
Proof.
  intros E Hk. destruct (right_angles x k E Hk) as (z & -> & Z1 & Z2). destruct (sin_good z) as (y & Y & r & G & G2). exists z, y. split; [reflexivity|]. split; [exact Y|].
  apply (good_at _ _ _ (2 * / 10 ^ 19) G); [|lra]. rewrite <- sin_turns. pose proof (sin_lip (v z) (IZR k * (PI / 2))) as Lp.
  replace (sin r - sin (IZR k * (PI / 2))) with ((sin r - sin (v z)) + (sin (v z) - sin (IZR k * (PI / 2)))) by ring. eapply Rle_trans; [apply Rabs_triang|]. lra.
Qed.
Lemma cos_right x k : v x = 90 * IZR k -> (Z.abs k <= 111111)%Z -> exists z y, to_radians L x = Ok (Some z) /\ checked_cos L z = Ok (Some y) /\ v y = IZR (turns_sin (k + 1)).
Proof.
  intros E Hk. destruct (right_angles x k E Hk) as (z & -> & Z1 & Z2). destruct (cos_good z) as (y & Y & r & G & G2). exists z, y. split; [reflexivity|]. split; [exact Y|].
  apply (good_at _ _ _ (2 * / 10 ^ 19) G); [|lra]. rewrite <- cos_turns. pose proof (cos_lip (v z) (IZR k * (PI / 2))) as Lp.
  replace (cos r - cos (IZR k * (PI / 2))) with ((cos r - cos (v z)) + (cos (v z) - cos (IZR k * (PI / 2)))) by ring. eapply Rle_trans; [apply Rabs_triang|]. lra.
Qed.

(** ** Tangent *)
Lemma near_rel q r : computes value q r -> Rabs (Q2R q) <= 10 ^ 28 -> exists z, r = Some z /\ Rabs (v z - Q2R q) <= / 10 ^ 28 + Rabs (Q2R q) * / 10 ^ 27.
Proof.
  intros C Hq. destruct C as (_ & _ & C). destruct C as (z & -> & Z).
  { apply Rle_Qle. rewrite Q2R_abs, Q2R_int. eapply Rle_trans; [exact Hq|]. rewrite pow_IZR. apply IZR_le. vm_compute. discriminate. }
  exists z. split; [reflexivity|].
  assert (ZR : forall s, (0 <= s <= 28)%nat -> Rabs (Q2R q) * 10 ^ s < 2 ^ 95 -> Rabs (v z - Q2R q) <= / 10 ^ s).
  { intros s Hs H. assert (P : 0 < 10 ^ s) by (apply pow_lt; lra). specialize (Z (Z.of_nat s) ltac:(lia)). assert (H' : (Qabs q * inject_Z (10 ^ Z.of_nat s) < inject_Z (2 ^ 95))%Q).
    { apply Rlt_Qlt. rewrite Q2R_mult, Q2R_abs, !Q2R_int, <- pow_IZR. eapply Rlt_le_trans; [exact H|]. change (2 ^ 95)%Z with (2 ^ Z.of_nat 95)%Z. rewrite <- pow_IZR. apply Rle_refl. }
    specialize (Z H'). apply Qle_Rle in Z. rewrite Q2R_mult, Q2R_abs, Q2R_minus, Q2R_int, <- pow_IZR, Q2R_1 in Z. change (Rabs (v z - Q2R q) * 10 ^ s <= 1) in Z.
    apply Rmult_le_reg_r with (10 ^ s); [exact P|]. rewrite Rinv_l by lra. exact Z. }
  assert (B95 : 2 ^ 95 >= 10 ^ 28) by lra.
  assert (G : forall n s, (s + n = 28)%nat -> Rabs (Q2R q) * 10 ^ s < 2 ^ 95 -> Rabs (v z - Q2R q) <= / 10 ^ 28 + Rabs (Q2R q) * / 10 ^ 27).
  { induction n as [|n IH]; intros s Hs H.
    - specialize (ZR s ltac:(lia) H). replace s with 28%nat in ZR by lia. pose proof (Rabs_pos (Q2R q)). eapply Rle_trans; [exact ZR|]. assert (0 <= Rabs (Q2R q) * / 10 ^ 27) by (apply Rmult_le_pos; [assumption|lra]). lra.
    - destruct (Rlt_le_dec (Rabs (Q2R q) * 10 ^ S s) (2 ^ 95)) as [H1|H1]; [apply (IH (S s)); [lia|exact H1]|]. specialize (ZR s ltac:(lia) H). eapply Rle_trans; [exact ZR|].
      assert (P : 0 < 10 ^ s) by (apply pow_lt; lra). apply Rle_trans with (Rabs (Q2R q) * / 10 ^ 27); [|assert (0 < / 10 ^ 28) by lra; lra].
      apply Rmult_le_reg_r with (10 ^ s); [exact P|]. rewrite Rinv_l by lra. cbn [pow] in H1. set (p := 10 ^ s) in *. clearbody p. lra. }
  apply (G 28%nat 0%nat); [lia|]. cbn [pow]. rewrite Rmult_1_r. eapply Rle_lt_trans; [exact Hq|]. lra.
Qed.
Lemma tan_degrees x y z c : Rabs (v x) <= 10 ^ 9 -> to_radians L x = Ok (Some z) -> checked_cos L z = Ok (Some c) -> is_zero L c = false -> checked_tan L z = Ok (Some y) ->
  Rabs (v y * cos (v x * PI / 180) - sin (v x * PI / 180)) <= 4 * / 10 ^ 16 * (1 + Rabs (v y)).
Proof.
  intros Hx Hz Hc Nc Hy. destruct (sin_degrees x Hx) as (s & S1 & S2). destruct (cos_degrees x Hx) as (c' & C1 & C2). rewrite Hz in S1, C1. cbn [ModelDecimal.call] in S1, C1. rewrite Hc in C1. injection C1 as <-.
  unfold checked_tan in Hy. rewrite Hc in Hy. cbn [ModelDecimal.call] in Hy. rewrite Nc, S1 in Hy. cbn [ModelDecimal.call] in Hy.
  assert (N0 : ~ (value c == 0)%Q) by (rewrite <- (is_zero_iff L value EX); congruence).
  destruct (cos_ok L value EX z) as (c2 & E2 & _ & C3). rewrite Hc in E2. injection E2 as <-. specialize (C3 N0). apply Qle_Rle in C3. rewrite Q2R_abs in C3. fold (v c) in C3.
  replace (Q2R (1 # 10000000000000000)) with (/ 10 ^ 16) in C3 by (unfold Q2R; cbn [Qnum Qden]; lra).
  set (t := v x * PI / 180) in *. pose proof (COS_bound t) as CB. pose proof (SIN_bound t) as SB.
  assert (Sb : Rabs (v s) <= 1.1). { apply Rabs_def2' in S2. apply Rabs_le. lra. } assert (Cb : Rabs (v c) <= 1.1). { apply Rabs_def2' in C2. apply Rabs_le. lra. }
  assert (Eq : Q2R (value s / value c) = v s / v c) by (rewrite Q2R_div by exact N0; reflexivity).
  assert (C0 : 0 < Rabs (v c)) by lra. assert (C0' : v c <> 0) by (intros E; rewrite E, Rabs_R0 in C0; lra).
  assert (Qb : Rabs (v s / v c) * Rabs (v c) = Rabs (v s)) by (rewrite <- Rabs_mult; f_equal; field; exact C0').
  destruct (near_rel _ _ (ed_div _ _ EX s c N0)) as (q & Q1 & Q2).
  { rewrite Eq. apply Rle_trans with (10 ^ 20); [|lra]. apply Rmult_le_reg_r with (Rabs (v c)); [exact C0|]. rewrite Qb. apply Rle_trans with 1.1; [exact Sb|]. apply Rle_trans with (10 ^ 20 * / 10 ^ 16); [lra|]. apply Rmult_le_compat_l; [lra|exact C3]. }
  rewrite Eq in Q2. unfold d_div in Hy. rewrite Q1 in Hy. cbn [must] in Hy. destruct (approx_near L value EX q) as (y' & Y1 & Y2 & _). rewrite Hy in Y1. injection Y1 as <-.
  assert (Res : Rabs (v y * v c - v s) <= 1.5 * / 10 ^ 16).
  { replace (v y * v c - v s) with ((v y - v q) * v c + (v q - v s / v c) * v c) by (field; exact C0'). eapply Rle_trans; [apply Rabs_triang|]. rewrite !Rabs_mult.
    apply Rle_trans with (/ 10 ^ 16 * 1.1 + (/ 10 ^ 28 * 1.1 + 1.1 * / 10 ^ 27)); [|lra]. apply Rplus_le_compat.
    - apply Rmult_le_compat; try apply Rabs_pos; [lra|exact Cb].
    - eapply Rle_trans; [apply Rmult_le_compat_r; [apply Rabs_pos|exact Q2]|]. rewrite Rmult_plus_distr_r. replace (Rabs (v s / v c) * / 10 ^ 27 * Rabs (v c)) with (Rabs (v s / v c) * Rabs (v c) * / 10 ^ 27) by ring. rewrite Qb. lra. }
  replace (v y * cos t - sin t) with ((v y * v c - v s) + ((v s - sin t) - v y * (v c - cos t))) by ring. eapply Rle_trans; [apply Rabs_triang|].
  pose proof (Rabs_triang (v s - sin t) (- (v y * (v c - cos t)))) as Tr. rewrite Rabs_Ropp, Rabs_mult in Tr. unfold Rminus at 2.
  pose proof (Rabs_pos (v y)) as Y0. assert (Rabs (v y) * Rabs (v c - cos t) <= Rabs (v y) * (2.2 * / 10 ^ 16)) by (apply Rmult_le_compat_l; assumption). lra.
Qed.
End Real.
