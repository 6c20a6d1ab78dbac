(** * The decimal sine and cosine and the real ones *)
From Coq Require Import List NArith ZArith QArith Qabs Qround Qreals Reals Bool Lia Lra String.
From Verif Require Import ModelBase ModelContext ModelText ModelDefault ModelFloat ModelNum ModelOps ModelDecimal
  SpecText SpecExpr SpecOps SpecDecimal ProofText ProofDefault ProofBuild ProofCtx ProofDecimal ProofDecimal2 ProofDecTrig ProofReals.
Import ListNotations.
Local Open Scope R_scope.

Lemma Q2R_abs q : Q2R (Qabs q) = Rabs (Q2R q).
Proof.
  destruct (Qlt_le_dec q 0) as [H|H].
  - rewrite Rabs_left1; [|replace 0 with (Q2R 0) by (unfold Q2R; cbn; lra); apply Qle_Rle, Qlt_le_weak, H]. rewrite <- Q2R_opp. apply Qeq_eqR. apply Qabs_neg, Qlt_le_weak, H.
  - rewrite Rabs_pos_eq; [|replace 0 with (Q2R 0) by (unfold Q2R; cbn; lra); apply Qle_Rle, H]. apply Qeq_eqR. apply Qabs_pos, H.
Qed.
Lemma Q2R_0 : Q2R 0 = 0. Proof. unfold Q2R. cbn. lra. Qed.
Lemma Q2R_1 : Q2R 1 = 1. Proof. unfold Q2R. cbn. lra. Qed.
Lemma Q2R_int z : Q2R (inject_Z z) = IZR z. Proof. apply Q2R_Z. Qed.
Lemma Rle_Qle' p q : Q2R p <= Q2R q -> (p <= q)%Q. Proof. apply Rle_Qle. Qed.
Lemma Q2R_dec c n : (0 < n)%nat -> Q2R (c # Pos.of_nat n) = IZR c / INR n.
Proof. intros H. unfold Q2R. cbn. rewrite INR_IZR_INZ. rewrite <- (Nat2Pos.id n) at 2 by lia. rewrite positive_nat_Z. reflexivity. Qed.

Section Real.
Context {D : Type}.
Variable L : dlib D.
Variable value : D -> Q.
Hypothesis EX : exact_decimals L value.
Definition v (d : D) : R := Q2R (value d).

(** A result of size at most [B] is there, and close to the exact one. *)
Lemma near s b q r : (0 <= s <= 28)%Z -> (inject_Z b * inject_Z (10 ^ s) < inject_Z (2 ^ 95))%Q -> (b <= 1000000000000)%Z ->
  computes value q r -> Rabs (Q2R q) <= IZR b -> exists z, r = Some z /\ Rabs (v z - Q2R q) <= / IZR (10 ^ s).
Proof.
  intros Hs Hb Hb' (_ & _ & C) Hq. rewrite <- Q2R_abs, <- Q2R_int in Hq. apply Rle_Qle in Hq.
  destruct C as (z & -> & Z); [eapply Qle_trans; [exact Hq|]; rewrite <- Zle_Qle; eapply Z.le_trans; [exact Hb'|]; vm_compute; discriminate|].
  exists z. split; [reflexivity|]. assert (P : (0 < 10 ^ s)%Z) by (apply Z.pow_pos_nonneg; lia).
  specialize (Z s Hs). assert (S : (Qabs q * inject_Z (10 ^ s) < inject_Z (2 ^ 95))%Q).
  { eapply Qle_lt_trans; [|exact Hb]. apply Qmult_le_compat_r; [exact Hq|]. change 0%Q with (inject_Z 0). rewrite <- Zle_Qle. lia. }
  specialize (Z S). apply Qle_Rle in Z. rewrite Q2R_mult, Q2R_abs, Q2R_minus, Q2R_int, Q2R_1 in Z. unfold v.
  apply IZR_lt in P. apply Rmult_le_reg_r with (IZR (10 ^ s)); [exact P|]. rewrite Rinv_l by lra. exact Z.
Qed.
Lemma near28 q r : computes value q r -> Rabs (Q2R q) <= 3 -> exists z, r = Some z /\ Rabs (v z - Q2R q) <= / 10 ^ 28.
Proof. intros H Hq. destruct (near 28 3 q r ltac:(lia) ltac:(reflexivity) ltac:(lia) H Hq) as (z & E & Z). exists z. split; [exact E|]. rewrite pow_IZR. exact Z. Qed.
Lemma near26 q r : computes value q r -> Rabs (Q2R q) <= 390 -> exists z, r = Some z /\ Rabs (v z - Q2R q) <= / 10 ^ 26.
Proof. intros H Hq. destruct (near 26 390 q r ltac:(lia) ltac:(reflexivity) ltac:(lia) H Hq) as (z & E & Z). exists z. split; [exact E|]. rewrite pow_IZR. exact Z. Qed.
Lemma near24 q r : computes value q r -> Rabs (Q2R q) <= 39000 -> exists z, r = Some z /\ Rabs (v z - Q2R q) <= / 10 ^ 24.
Proof. intros H Hq. destruct (near 24 39000 q r ltac:(lia) ltac:(reflexivity) ltac:(lia) H Hq) as (z & E & Z). exists z. split; [exact E|]. rewrite pow_IZR. exact Z. Qed.
Lemma near18 q r : computes value q r -> Rabs (Q2R q) <= 39000000000 -> exists z, r = Some z /\ Rabs (v z - Q2R q) <= / 10 ^ 18.
Proof. intros H Hq. destruct (near 18 39000000000 q r ltac:(lia) ltac:(reflexivity) ltac:(lia) H Hq) as (z & E & Z). exists z. split; [exact E|]. rewrite pow_IZR. exact Z. Qed.

Lemma v_int z : (Z.abs z < limit)%Z -> v (int L z) = IZR z.
Proof. intros H. unfold v. rewrite (Qeq_eqR _ _ (int_val L value EX z H)). apply Q2R_int. Qed.
Lemma v_neg x : v (d_neg L x) = - v x.
Proof. unfold v. rewrite (Qeq_eqR _ _ (ed_neg _ _ EX x)). apply Q2R_opp. Qed.
Lemma v_abs x : v (d_abs L x) = Rabs (v x).
Proof. unfold v. rewrite (Qeq_eqR _ _ (ed_abs _ _ EX x)). apply Q2R_abs. Qed.
Lemma v_zero : v (ZERO L) = 0. Proof. apply (v_int 0). reflexivity. Qed.
Lemma v_one : v (ONE L) = 1. Proof. apply (v_int 1). reflexivity. Qed.
Lemma v_two : v (TWO L) = 2. Proof. apply (v_int 2). reflexivity. Qed.
Lemma v_lit28 c : (Z.abs c < limit)%Z -> v (d_lit L c 28) = IZR c / 10 ^ 28.
Proof. intros H. unfold v. rewrite (Qeq_eqR _ _ (lit28 L value EX c H)). unfold Q2R, Rdiv. cbn [Qnum Qden]. rewrite pow_IZR. reflexivity. Qed.
Lemma v_prec : v (PRECISION L) = / 10 ^ 16.
Proof. unfold v. rewrite (Qeq_eqR _ _ (precision_val L value EX)). unfold Q2R. cbn [Qnum Qden]. rewrite Rmult_1_l. f_equal. rewrite pow_IZR. reflexivity. Qed.
Lemma v_nz x : v x <> 0 -> ~ (value x == 0)%Q.
Proof. intros H E. apply H. unfold v. rewrite (Qeq_eqR _ _ E). apply Q2R_0. Qed.
Lemma v_eq x y : v x = v y <-> (value x == value y)%Q.
Proof. split; [apply eqR_Qeq|apply Qeq_eqR]. Qed.
Lemma v_lt x y : d_lt L x y = true <-> v x < v y.
Proof. rewrite (d_lt_iff L value EX). split; [apply Qlt_Rlt|apply Rlt_Qlt]. Qed.
Lemma v_lt_f x y : d_lt L x y = false <-> v y <= v x.
Proof. rewrite (d_lt_false L value EX). split; [apply Qle_Rle|apply Rle_Qle]. Qed.

(** ** [approx]: to the nearest integer if that is nearer than 10^-16. *)
Lemma approx_near x : exists y, approx L x = Ok (Some y) /\ Rabs (v y - v x) < / 10 ^ 16 /\ (forall j, Rabs (v x - IZR j) < / 10 ^ 16 -> v y = IZR j) /\
  (v y = v x \/ exists j, v y = IZR j).
Proof.
  unfold approx, approx_eq. destruct (ed_round _ _ EX x) as (k & K1 & K2).
  destruct (computes_exact value _ _ (ed_sub _ _ EX x (d_round L x))) as (z & Z1 & Z2).
  { apply (rep_comp (value x - inject_Z k)); [rewrite K1; reflexivity|]. apply rep_sub_int; [apply (ed_representable _ _ EX)|exact K2]. }
  unfold d_sub. rewrite Z1. cbn [must]. 
  assert (Vr : v (d_round L x) = IZR k) by (unfold v; rewrite (Qeq_eqR _ _ K1); apply Q2R_int).
  assert (Vz : v z = v x - IZR k) by (unfold v at 1; rewrite (Qeq_eqR _ _ Z2), Q2R_minus; fold (v (d_round L x)); rewrite Vr; reflexivity).
  assert (H2 : Rabs (v x - IZR k) <= / 2). { apply Qle_Rle in K2. rewrite Q2R_abs, Q2R_minus, Q2R_int in K2. unfold v. eapply Rle_trans; [exact K2|]. unfold Q2R. cbn. lra. }
  assert (E16 : 0 < / 10 ^ 16 < / 4) by lra.
  assert (J : forall j, Rabs (v x - IZR j) < / 10 ^ 16 -> j = k).
  { intros j Hj. assert (X : Rabs (IZR j - IZR k) < 1).
    { replace (IZR j - IZR k) with ((v x - IZR k) - (v x - IZR j)) by ring. eapply Rle_lt_trans; [apply Rabs_triang|]. rewrite Rabs_Ropp. lra. }
    rewrite <- minus_IZR, <- abs_IZR in X. apply lt_IZR in X. lia. }
  destruct (d_lt L (d_abs L z) (PRECISION L)) eqn:B.
  - rewrite v_lt, v_abs, v_prec, Vz in B. exists (d_round L x). split; [reflexivity|]. rewrite Vr. split; [rewrite Rabs_minus_sym; exact B|]. split.
    + intros j Hj. rewrite (J j Hj). reflexivity. + right. exists k. reflexivity.
  - rewrite v_lt_f, v_abs, v_prec, Vz in B. exists x. split; [reflexivity|]. split; [rewrite Rminus_diag_eq, Rabs_R0 by reflexivity; lra|]. split; [|left; reflexivity].
    intros j Hj. rewrite (J j Hj) in Hj. lra.
Qed.

(** ** The series, step by step *)
Definition u : R := / 10 ^ 26.
Section Steps.
Variable coef : Z -> Z.
Variable c : nat -> R.
Variables t0 XX : R.
Variable n0 : nat.
Notation T := (term c t0 XX).
Hypothesis coef_c : forall n, (n < 100)%nat -> IZR (coef (Z.of_nat n + 1)) = c n.
Hypothesis coef_pos : forall n, (1 <= n <= 200)%Z -> (1 <= coef n < 1000000)%Z.
Hypothesis HXX : 0 <= XX <= 40.
Variable lim : nat -> R.
Hypothesis lim_T : forall n, (n0 <= n)%nat -> Rabs (T n) <= lim n.
Hypothesis lim_b : forall n, 0 <= lim n <= 99.
Variable dev : nat -> R.
Hypothesis dev_step : forall n, (n0 <= n)%nat -> 201 * u + XX / c n * dev n <= dev (S n).
Hypothesis dev_b : forall n, 0 <= dev n <= 1200 * u.
Lemma psum_S k : psum c t0 XX (S k) = psum c t0 XX k + T (S k). Proof. reflexivity. Qed.
Lemma steps turns : forall n xx factor result d b, (n0 <= n)%nat -> (n + turns < 100)%nat -> Rabs (v xx - XX) <= u ->
  Rabs (v factor - T n) <= dev n -> Rabs (v result - psum c t0 XX n) <= d -> Rabs (psum c t0 XX n) <= b -> b + 100 * INR turns <= 20000 -> d + INR turns * / 10 ^ 22 <= 1 ->
  exists y, series L coef turns (Z.of_nat n + 1) xx factor result = Ok (Some y) /\ Rabs (v y - psum c t0 XX (n + turns)) <= d + INR turns * / 10 ^ 22.
Proof.
  induction turns as [|t IH]; intros n xx factor result d b Hn Ht Hxx Hf Hr Hb B1 B2; cbn [series].
  - exists result. split; [reflexivity|]. rewrite Nat.add_0_r. cbn [INR]. lra.
  - assert (U : 0 < u < / 10 ^ 25) by (unfold u; lra). pose proof (coef_c n ltac:(lia)) as Cc. pose proof (coef_pos (Z.of_nat n + 1) ltac:(lia)) as Cp.
    assert (C1 : 1 <= c n) by (rewrite <- Cc; apply IZR_le; lia). assert (Ci : 0 < / c n <= 1) by (split; [apply Rinv_0_lt_compat; lra|rewrite <- Rinv_1; apply Rinv_le_contravar; lra]).
    assert (Vc : v (int L (coef (Z.of_nat n + 1))) = c n) by (rewrite v_int; [exact Cc|rewrite limit_val; lia]).
    assert (Xb : Rabs (v xx) <= 41). { replace (v xx) with ((v xx - XX) + XX) by ring. eapply Rle_trans; [apply Rabs_triang|]. rewrite (Rabs_pos_eq XX) by lra. lra. }
    assert (Eq : Q2R (value (d_neg L xx) / value (int L (coef (Z.of_nat n + 1)))) = - v xx / c n).
    { rewrite Q2R_div by (apply v_nz; rewrite Vc; lra). change (v (d_neg L xx) / v (int L (coef (Z.of_nat n + 1))) = - v xx / c n). rewrite v_neg, Vc. reflexivity. }
    destruct (near26 _ _ (ed_div _ _ EX (d_neg L xx) (int L (coef (Z.of_nat n + 1))) ltac:(apply v_nz; rewrite Vc; lra))) as (q & Q1 & Q2).
    { rewrite Eq. unfold Rdiv. rewrite Rabs_mult, Rabs_Ropp, (Rabs_pos_eq (/ c n)) by lra. pose proof (Rabs_pos (v xx)). nra. }
    unfold d_div. rewrite Q1. cbn [must]. rewrite Eq in Q2. fold u in Q2.
    assert (Qd : Rabs (v q - (- XX / c n)) <= 2 * u).
    { replace (v q - - XX / c n) with ((v q - - v xx / c n) + (XX - v xx) * / c n) by (field; lra). eapply Rle_trans; [apply Rabs_triang|]. rewrite (Rabs_mult _ (/ c n)), (Rabs_pos_eq (/ c n)) by lra.
      rewrite (Rabs_minus_sym XX). pose proof (Rabs_pos (v xx - XX)). nra. }
    assert (Xc : 0 <= XX / c n <= 40) by (unfold Rdiv; split; nra).
    assert (Qb : Rabs (v q) <= 41). { replace (v q) with ((v q - - XX / c n) + - (XX / c n)) by (field; lra). eapply Rle_trans; [apply Rabs_triang|]. rewrite Rabs_Ropp, (Rabs_pos_eq (XX / c n)) by lra. lra. }
    pose proof (lim_T n Hn) as Ln. pose proof (lim_b n) as Lb. pose proof (dev_b n) as Db.
    assert (Fb : Rabs (v factor) <= 100). { replace (v factor) with ((v factor - T n) + T n) by ring. eapply Rle_trans; [apply Rabs_triang|]. lra. }
    (* the product is T (n+1) up to 200 u + (XX / c) dev n *)
    assert (Pd : Rabs (v factor * v q - T (S n)) <= 200 * u + XX / c n * dev n).
    { cbn [term]. replace (v factor * v q - T n * (- XX / c n)) with (v factor * (v q - - XX / c n) + - (XX / c n) * (v factor - T n)) by (field; lra).
      eapply Rle_trans; [apply Rabs_triang|]. rewrite !Rabs_mult, Rabs_Ropp, (Rabs_pos_eq (XX / c n)) by lra.
      apply Rplus_le_compat; [|apply Rmult_le_compat_l; [lra|exact Hf]]. replace (200 * u) with (100 * (2 * u)) by ring. apply Rmult_le_compat; try apply Rabs_pos; assumption. }
    pose proof (dev_step n Hn) as Ds. pose proof (dev_b (S n)) as Db'. pose proof (lim_T (S n) ltac:(lia)) as Ln'. pose proof (lim_b (S n)) as Lb'.
    assert (Pb : Rabs (v factor * v q) <= 100). { replace (v factor * v q) with ((v factor * v q - T (S n)) + T (S n)) by ring. eapply Rle_trans; [apply Rabs_triang|]. lra. }
    destruct (near26 _ _ (ed_mul _ _ EX factor q)) as (f' & F1 & F2); [rewrite Q2R_mult; fold (v factor) (v q); lra|]. unfold d_mul. rewrite F1. cbn [must].
    rewrite Q2R_mult in F2. fold (v factor) (v q) u in F2.
    assert (Fd : Rabs (v f' - T (S n)) <= dev (S n)).
    { replace (v f' - T (S n)) with ((v f' - v factor * v q) + (v factor * v q - T (S n))) by ring. eapply Rle_trans; [apply Rabs_triang|]. lra. }
    rewrite S_INR in B1, B2 |- *. pose proof (pos_INR t) as It.
    assert (Sd : Rabs ((v result + v f') - psum c t0 XX (S n)) <= d + 1200 * u).
    { rewrite psum_S. replace (v result + v f' - (psum c t0 XX n + T (S n))) with ((v result - psum c t0 XX n) + (v f' - T (S n))) by ring. eapply Rle_trans; [apply Rabs_triang|]. lra. }
    assert (Sb : Rabs (psum c t0 XX (S n)) <= b + 99). { rewrite psum_S. eapply Rle_trans; [apply Rabs_triang|]. lra. }
    assert (Rb : Rabs (v result + v f') <= 39000). { replace (v result + v f') with ((v result + v f' - psum c t0 XX (S n)) + psum c t0 XX (S n)) by ring. eapply Rle_trans; [apply Rabs_triang|]. lra. }
    destruct (near24 _ _ (ed_add _ _ EX result f')) as (r' & R1 & R2); [rewrite Q2R_plus; fold (v result) (v f'); exact Rb|]. unfold d_add. rewrite R1. cbn [must].
    rewrite Q2R_plus in R2. fold (v result) (v f') in R2.
    assert (Rd : Rabs (v r' - psum c t0 XX (S n)) <= d + / 10 ^ 22).
    { replace (v r' - psum c t0 XX (S n)) with ((v r' - (v result + v f')) + ((v result + v f') - psum c t0 XX (S n))) by ring. eapply Rle_trans; [apply Rabs_triang|]. unfold u in *. lra. }
    destruct (IH (S n) xx f' r' (d + / 10 ^ 22) (b + 99)) as (y & Y1 & Y2); try assumption; try lia; try lra.
    exists y. replace (Z.of_nat n + 1 + 1)%Z with (Z.of_nat (S n) + 1)%Z by lia. split; [exact Y1|]. replace (n + S t)%nat with (S n + t)%nat by lia. lra.
Qed.
End Steps.

(** ** Reduction to one turn *)
Lemma truncated_abs q : (Z.abs (truncated q) <= Z.abs (truncated q))%Z /\ Rabs (IZR (truncated q)) <= Rabs (Q2R q).
Proof.
  split; [lia|]. unfold truncated. destruct (Qle_bool 0 q) eqn:B.
  - apply Qle_bool_iff in B. pose proof (Qfloor_le q) as F. assert (N : (0 <= Qfloor q)%Z) by (change 0%Z with (Qfloor 0); apply Qfloor_resp_le; exact B).
    apply Qle_Rle in F. rewrite Q2R_int in F. apply IZR_le in N. apply Qle_Rle in B. rewrite Q2R_0 in B. rewrite !Rabs_pos_eq by lra. exact F.
  - assert (B' : (q <= 0)%Q) by (apply Qlt_le_weak, Qnot_le_lt; intros H; apply Qle_bool_iff in H; congruence).
    pose proof (Qle_ceiling q) as F. assert (N : (Qceiling q <= 0)%Z) by (change 0%Z with (Qceiling 0); apply Qceiling_resp_le; exact B').
    apply Qle_Rle in F. rewrite Q2R_int in F. apply IZR_le in N. apply Qle_Rle in B'. rewrite Q2R_0 in B'. rewrite !Rabs_left1 by lra. lra.
Qed.
Definition turn : R := IZR 62831853071795864769252867666 / 10 ^ 28.
Lemma turn_pi : Rabs (turn - 2 * PI) <= 2 * / 10 ^ 28.
Proof.
  pose proof PI_enclosed as P. replace (turn - 2 * PI) with (- (2 * (PI - Q2R PI_hat))).
  - rewrite Rabs_Ropp, Rabs_mult, (Rabs_pos_eq 2) by lra. lra.
  - unfold turn, PI_hat, Q2R. cbn [Qnum Qden]. lra.
Qed.
Lemma reduce x : exists r k, d_rem L x (PI_2 L) = Some r /\ v r = v x - turn * IZR k /\ Rabs (v r) <= 6.2832 /\ Rabs (IZR k) <= Rabs (v x) / 6.
Proof.
  assert (P : v (PI_2 L) = turn) by (apply v_lit28; reflexivity). assert (T6 : 6 < turn < 6.2832) by (unfold turn; lra).
  assert (NZ : ~ (value (PI_2 L) == 0)%Q) by (apply v_nz; rewrite P; lra).
  destruct (ed_rem _ _ EX x (PI_2 L) NZ) as (r & R1 & R2). destruct (rem_bound L value EX x (PI_2 L) NZ) as (r' & R1' & R3).
  unfold d_rem in *. rewrite R1 in R1'. injection R1' as <-. exists r, (truncated (value x / value (PI_2 L))). split; [exact R1|]. split; [|split].
  - unfold v at 1. rewrite (Qeq_eqR _ _ R2), Q2R_minus, Q2R_mult, Q2R_int. fold (v x) (v (PI_2 L)). rewrite P. reflexivity.
  - apply Qle_Rle in R3. rewrite !Q2R_abs in R3. fold (v r) (v (PI_2 L)) in R3. rewrite P, (Rabs_pos_eq turn) in R3 by lra. lra.
  - destruct (truncated_abs (value x / value (PI_2 L))) as [_ A]. rewrite Q2R_div in A by exact NZ. fold (v x) (v (PI_2 L)) in A. rewrite P in A. eapply Rle_trans; [exact A|].
    unfold Rdiv. rewrite Rabs_mult. apply Rmult_le_compat_l; [apply Rabs_pos|]. rewrite Rabs_inv, Rabs_pos_eq by lra. apply Rinv_le_contravar; lra.
Qed.
Lemma reduced x r k : v r = v x - turn * IZR k -> Rabs (IZR k) <= Rabs (v x) / 6 ->
  Rabs (sin (v r) - sin (v x)) <= Rabs (v x) * / 10 ^ 28 /\ Rabs (cos (v r) - cos (v x)) <= Rabs (v x) * / 10 ^ 28.
Proof.
  intros E K. pose proof turn_pi as T. assert (S1 : sin (v r) = sin (v r + 2 * IZR k * PI)) by (symmetry; apply sin_period_Z). assert (S2 : cos (v r) = cos (v r + 2 * IZR k * PI)) by (symmetry; apply cos_period_Z).
  assert (B : Rabs (v r + 2 * IZR k * PI - v x) <= Rabs (v x) * / 10 ^ 28).
  { rewrite E. replace (v x - turn * IZR k + 2 * IZR k * PI - v x) with (- ((turn - 2 * PI) * IZR k)) by ring. rewrite Rabs_Ropp, Rabs_mult.
    apply Rle_trans with (2 * / 10 ^ 28 * (Rabs (v x) / 6)); [apply Rmult_le_compat; try apply Rabs_pos; assumption|]. pose proof (Rabs_pos (v x)). lra. }
  split; [rewrite S1; eapply Rle_trans; [apply sin_lip|]|rewrite S2; eapply Rle_trans; [apply cos_lip|]]; exact B.
Qed.

(** ** Near, and the integer if that is very near *)
Definition good (y s : R) : Prop := Rabs (y - s) <= 1.1 * / 10 ^ 16 /\ (forall j, Rabs (s - IZR j) <= 0.9 * / 10 ^ 16 -> y = IZR j).
Lemma good_int i s : Rabs (IZR i - s) <= 1.1 * / 10 ^ 16 -> good (IZR i) s.
Proof.
  intros H. split; [exact H|]. intros j Hj. f_equal. assert (X : Rabs (IZR i - IZR j) < 1).
  { replace (IZR i - IZR j) with ((IZR i - s) + (s - IZR j)) by ring. eapply Rle_lt_trans; [apply Rabs_triang|]. lra. }
  rewrite <- minus_IZR, <- abs_IZR in X. apply lt_IZR in X. lia.
Qed.
Lemma good_approx x s : Rabs (v x - s) <= 0.05 * / 10 ^ 16 -> exists y, approx L x = Ok (Some y) /\ good (v y) s.
Proof.
  intros H. destruct (approx_near x) as (y & Y1 & Y2 & Y3 & _). exists y. split; [exact Y1|]. split.
  - replace (v y - s) with ((v y - v x) + (v x - s)) by ring. eapply Rle_trans; [apply Rabs_triang|]. lra.
  - intros j Hj. apply Y3. replace (v x - IZR j) with ((v x - s) + (s - IZR j)) by ring. eapply Rle_lt_trans; [apply Rabs_triang|]. lra.
Qed.
Lemma rep_sub28 (x : Q) c : representable x -> (Qabs (x - (c # 10000000000000000000000000000)) <= 7)%Q -> representable (x - (c # 10000000000000000000000000000)).
Proof.
  intros (m & s & Hs & Hm & E) Hx. set (d := 10000000000000000000000000000%positive) in *. assert (D28 : (10 ^ 28 = Z.pos d)%Z) by reflexivity. exists (m * 10 ^ (28 - s) - c)%Z, 28%Z. split; [lia|].
  assert (P : (10 ^ s * 10 ^ (28 - s) = Z.pos d)%Z) by (rewrite <- Z.pow_add_r by lia; replace (s + (28 - s))%Z with 28%Z by lia; exact D28).
  assert (Q1 : ((x - (c # d)) * inject_Z (10 ^ 28) == inject_Z (m * 10 ^ (28 - s) - c))%Q).
  { rewrite D28. unfold Z.sub at 1. rewrite inject_Z_plus, inject_Z_opp, inject_Z_mult, <- E. rewrite <- Qmult_assoc, <- inject_Z_mult, P.
    assert (C : ((c # d) * inject_Z (Z.pos d) == inject_Z c)%Q) by (unfold Qeq, inject_Z; simpl; lia). rewrite <- C. ring. }
  split; [|exact Q1]. assert (Q2 : (Qabs (inject_Z (m * 10 ^ (28 - s) - c)) <= 7 * inject_Z (10 ^ 28))%Q).
  { rewrite <- Q1, Qabs_Qmult. apply Qmult_le_compat_r; [exact Hx|discriminate]. }
  change (Qabs (inject_Z (m * 10 ^ (28 - s) - c))) with (inject_Z (Z.abs (m * 10 ^ (28 - s) - c))) in Q2. change (7 * inject_Z (10 ^ 28))%Q with (inject_Z (7 * 10 ^ 28)) in Q2. rewrite <- Zle_Qle in Q2.
  eapply Z.le_lt_trans; [exact Q2|]. vm_compute. reflexivity.
Qed.
Lemma eq_near x c k : (Z.abs c < limit)%Z -> Rabs (v x) <= 10 -> exists b, approx_eq L x (d_lit L c 28) (PRECISION L) k = k b /\
  (b = true -> Rabs (v x - IZR c / 10 ^ 28) < / 10 ^ 16) /\ (b = false -> / 10 ^ 16 <= Rabs (v x - IZR c / 10 ^ 28)).
Proof.
  intros Hc Hx. assert (Vc : v (d_lit L c 28) = IZR c / 10 ^ 28) by (apply v_lit28; exact Hc). assert (Bc : Rabs (IZR c / 10 ^ 28) <= 10).
  { unfold Rdiv. rewrite Rabs_mult, (Rabs_pos_eq (/ 10 ^ 28)), <- abs_IZR by lra. rewrite limit_val in Hc. apply Rmult_le_reg_r with (10 ^ 28); [lra|]. rewrite Rmult_assoc, Rinv_l, Rmult_1_r by lra.
    replace (10 * 10 ^ 28) with (IZR (10 ^ 29)) by (rewrite <- pow_IZR with (n := 29%nat); ring). apply IZR_le. eapply Z.le_trans; [apply Z.lt_le_incl, Hc|]. vm_compute. discriminate. }
  assert (Eq : Q2R (value x - value (d_lit L c 28)) = v x - IZR c / 10 ^ 28) by (rewrite Q2R_minus; fold (v x) (v (d_lit L c 28)); rewrite Vc; reflexivity).
  destruct (near26 _ _ (ed_sub _ _ EX x (d_lit L c 28))) as (z & Z1 & Z2).
  { rewrite Eq. eapply Rle_trans; [apply Rabs_triang|]. rewrite Rabs_Ropp. lra. }
  assert (EZ : Rabs (v x - IZR c / 10 ^ 28) <= 7 -> v z = v x - IZR c / 10 ^ 28).
  { intros H7. assert (Vl : (value (d_lit L c 28) == c # 10000000000000000000000000000)%Q) by (apply (lit28 L value EX); exact Hc).
    destruct (computes_exact value _ _ (ed_sub _ _ EX x (d_lit L c 28))) as (z' & Z1' & Z2').
    { apply (rep_comp (value x - (c # 10000000000000000000000000000))); [rewrite Vl; reflexivity|]. apply rep_sub28; [apply (ed_representable _ _ EX)|]. apply Rle_Qle. rewrite Q2R_abs.
      assert (Vl2 : (value x - (c # 10000000000000000000000000000) == value x - value (d_lit L c 28))%Q) by (rewrite Vl; reflexivity). rewrite (Qeq_eqR _ _ Vl2), Eq. eapply Rle_trans; [exact H7|]. unfold Q2R. cbn. lra. }
    rewrite Z1 in Z1'. injection Z1' as <-. unfold v at 1. rewrite (Qeq_eqR _ _ Z2'). exact Eq. }
  unfold approx_eq, d_sub. rewrite Z1. cbn [must]. eexists. split; [reflexivity|]. rewrite Eq in Z2. split.
  - intros B. rewrite v_lt, v_abs, v_prec in B. rewrite <- EZ; [exact B|].
    replace (v x - IZR c / 10 ^ 28) with (v z - (v z - (v x - IZR c / 10 ^ 28))) by ring. eapply Rle_trans; [apply Rabs_triang|]. rewrite Rabs_Ropp. lra.
  - intros B. rewrite v_lt_f, v_abs, v_prec in B. destruct (Rle_dec (Rabs (v x - IZR c / 10 ^ 28)) 7) as [H7|H7]; [|lra]. rewrite (EZ H7) in B. exact B.
Qed.

(** ** Sine *)
Lemma sin_series_eq t : forall n xx f s, sin_series L t n xx f s = series L (fun n => (2 * n + 1) * (2 * n))%Z t n xx f s.
Proof.
  induction t as [|t IH]; intros n xx f s; cbn [sin_series series]; [reflexivity|]. unfold must. destruct (d_div _ _ _); [|reflexivity]. destruct (d_mul _ _ _); [|reflexivity].
  destruct (d_add _ _ _); [apply IH|reflexivity].
Qed.
Lemma cos_series_eq t : forall n xx f s, cos_series L t n xx f s = series L (fun n => 2 * n * (2 * n - 1))%Z t n xx f s.
Proof.
  induction t as [|t IH]; intros n xx f s; cbn [cos_series series]; [reflexivity|]. unfold must. destruct (d_div _ _ _); [|reflexivity]. destruct (d_mul _ _ _); [|reflexivity].
  destruct (d_add _ _ _); [apply IH|reflexivity].
Qed.
Lemma square_near r : Rabs (v r) <= 6.2832 -> exists xx, d_mul L r r = Some xx /\ Rabs (v xx - v r * v r) <= u /\ 0 <= v r * v r <= 40.
Proof.
  intros H. assert (S : 0 <= v r * v r <= 40). { split; [apply Rle_0_sqr|]. pose proof (sq_bound (v r) ltac:(lra)) as S. rewrite Rabs_pos_eq in S by (apply Rle_0_sqr). exact S. }
  destruct (near26 _ _ (ed_mul _ _ EX r r)) as (xx & X1 & X2); [rewrite Q2R_mult; fold (v r); rewrite Rabs_pos_eq; lra|]. rewrite Q2R_mult in X2. fold (v r) in X2. exists xx. split; [exact X1|]. split; [exact X2|exact S].
Qed.
Lemma quotient_le (c : nat -> R) m XX n : 0 < m -> m <= c n -> 0 <= XX <= 40 -> 0 <= XX / c n <= 40 / m.
Proof.
  intros Hm Hc HX. assert (0 < / c n <= / m) by (split; [apply Rinv_0_lt_compat; lra|apply Rinv_le_contravar; lra]). unfold Rdiv. split; [apply Rmult_le_pos; lra|]. apply Rmult_le_compat; lra.
Qed.
Definition sin_lim_R (n : nat) : R := match n with 0%nat => 6.2832 | 1%nat => 42 | _ => 88 end.
Definition sin_dev (n : nat) : R := match n with 0%nat => 0 | 1%nat => 300 * u | 2%nat => 900 * u | _ => 1200 * u end.
Lemma sin_c_Z n : sin_c n = IZR ((2 * Z.of_nat n + 3) * (2 * Z.of_nat n + 2)).
Proof. unfold sin_c. rewrite INR_IZR_INZ. f_equal. lia. Qed.
Lemma cos_c_Z n : cos_c n = IZR ((2 * Z.of_nat n + 2) * (2 * Z.of_nat n + 1)).
Proof. unfold cos_c. rewrite INR_IZR_INZ. f_equal. lia. Qed.
Lemma sin_c_ge m n : (Z.of_nat m <= Z.of_nat n)%Z -> sin_c m <= sin_c n.
Proof. intros H. rewrite !sin_c_Z. apply IZR_le. nia. Qed.
Lemma cos_c_ge m n : (Z.of_nat m <= Z.of_nat n)%Z -> cos_c m <= cos_c n.
Proof. intros H. rewrite !cos_c_Z. apply IZR_le. nia. Qed.
Lemma term_bound c t XX (lim : nat -> R) n0 : (forall n, (n0 <= n)%nat -> 0 < c n) -> 0 <= XX -> (forall n, (n0 <= n)%nat -> XX / c n * lim n <= lim (S n)) -> Rabs (term c t XX n0) <= lim n0 ->
  forall n, (n0 <= n)%nat -> Rabs (term c t XX n) <= lim n.
Proof.
  intros Hc HX Hs H0 n Hn. induction Hn as [|n Hn IH]; [exact H0|]. cbn [term]. specialize (Hc n Hn). specialize (Hs n Hn). eapply Rle_trans; [|exact Hs].
  replace (term c t XX n * (- XX / c n)) with (- (XX / c n * term c t XX n)) by (field; lra). rewrite Rabs_Ropp, Rabs_mult.
  assert (P : 0 <= XX / c n) by (apply Rmult_le_pos; [exact HX|left; apply Rinv_0_lt_compat; exact Hc]). rewrite (Rabs_pos_eq (XX / c n)) by exact P. apply Rmult_le_compat_l; assumption.
Qed.
Lemma sin_c0 : sin_c 0 = 6. Proof. rewrite sin_c_Z. reflexivity. Qed.
Lemma sin_c1 : sin_c 1 = 20. Proof. rewrite sin_c_Z. reflexivity. Qed.
Lemma sin_c2 : sin_c 2 = 42. Proof. rewrite sin_c_Z. reflexivity. Qed.
Lemma sin_c3 : sin_c 3 = 72. Proof. rewrite sin_c_Z. reflexivity. Qed.
Lemma cos_c1 : cos_c 1 = 12. Proof. rewrite cos_c_Z. reflexivity. Qed.
Lemma cos_c2 : cos_c 2 = 30. Proof. rewrite cos_c_Z. reflexivity. Qed.
Lemma cos_c3 : cos_c 3 = 56. Proof. rewrite cos_c_Z. reflexivity. Qed.
Lemma sin_sum_near r xx : Rabs (v r) <= 6.2832 -> Rabs (v xx - v r * v r) <= u -> 0 <= v r * v r <= 40 ->
  exists y, sin_series L 99 1 xx r r = Ok (Some y) /\ Rabs (v y - sin (v r)) <= 0.05 * / 10 ^ 16.
Proof.
  intros Hr Hx HX. assert (U : 0 < u) by (unfold u; lra).
  pose proof (fun n (_ : (0 <= n)%nat) => quotient_le sin_c 6 (v r * v r) n ltac:(lra) ltac:(rewrite <- sin_c0; apply sin_c_ge; lia) HX) as Q0.
  pose proof (fun n (H : (1 <= n)%nat) => quotient_le sin_c 20 (v r * v r) n ltac:(lra) ltac:(rewrite <- sin_c1; apply sin_c_ge; lia) HX) as Q1.
  pose proof (fun n (H : (2 <= n)%nat) => quotient_le sin_c 42 (v r * v r) n ltac:(lra) ltac:(rewrite <- sin_c2; apply sin_c_ge; lia) HX) as Q2.
  pose proof (fun n (H : (3 <= n)%nat) => quotient_le sin_c 72 (v r * v r) n ltac:(lra) ltac:(rewrite <- sin_c3; apply sin_c_ge; lia) HX) as Q3.
  assert (Cp : forall n, 0 < sin_c n). { intros n. rewrite sin_c_Z. apply IZR_lt. nia. }
  assert (TB : forall n, (0 <= n)%nat -> Rabs (term sin_c (v r) (v r * v r) n) <= sin_lim_R n).
  { apply term_bound; [intros; apply Cp|lra| |cbn; lra]. intros n _. destruct n as [|[|n]]; cbn [sin_lim_R].
    - specialize (Q0 0%nat ltac:(lia)). nra. - specialize (Q1 1%nat ltac:(lia)). nra. - specialize (Q2 (S (S n)) ltac:(lia)). nra. }
  destruct (steps (fun n => (2 * n + 1) * (2 * n))%Z sin_c (v r) (v r * v r) 0) with (lim := sin_lim_R) (dev := sin_dev) (turns := 99%nat) (n := 0%nat) (xx := xx) (factor := r) (result := r) (d := 0) (b := 7) as (y & Y1 & Y2).
  - intros n _. rewrite sin_c_Z. f_equal. lia.
  - intros n Hn. nia.
  - exact HX.
  - exact TB.
  - intros n. destruct n as [|[|n]]; cbn [sin_lim_R]; lra.
  - intros n _. destruct n as [|[|[|n]]]; cbn [sin_dev].
    + lra. + specialize (Q1 1%nat ltac:(lia)). nra. + specialize (Q2 2%nat ltac:(lia)). nra. + specialize (Q3 (S (S (S n))) ltac:(lia)). nra.
  - intros n. destruct n as [|[|[|n]]]; cbn [sin_dev]; lra.
  - lia.
  - lia.
  - exact Hx.
  - cbn. rewrite Rminus_diag_eq, Rabs_R0 by reflexivity. lra.
  - cbn. rewrite Rminus_diag_eq, Rabs_R0 by reflexivity. lra.
  - cbn. lra.
  - rewrite INR_IZR_INZ. change (IZR (Z.of_nat 99)) with 99. lra.
  - rewrite INR_IZR_INZ. change (IZR (Z.of_nat 99)) with 99. lra.
  - exists y. rewrite sin_series_eq. split; [exact Y1|]. cbn [Nat.add] in Y2. rewrite INR_IZR_INZ in Y2. change (IZR (Z.of_nat 99)) with 99 in Y2.
    pose proof (sin_close (v r) ltac:(lra)) as Z. replace (v y - sin (v r)) with ((v y - psum sin_c (v r) (v r * v r) 99) - (sin (v r) - psum sin_c (v r) (v r * v r) 99)) by ring.
    eapply Rle_trans; [apply Rabs_triang|]. rewrite Rabs_Ropp. lra.
Qed.
Definition cos_lim_R (n : nat) : R := match n with 0%nat => 1 | 1%nat => 20 | 2%nat => 67 | _ => 90 end.
Definition cos_dev (n : nat) : R := match n with 0%nat => 0 | 1%nat => 2 * u | 2%nat => 210 * u | 3%nat => 500 * u | _ => 1200 * u end.
Lemma cos_sum_near r xx f g : Rabs (v r) <= 6.2832 -> Rabs (v xx - v r * v r) <= u -> 0 <= v r * v r <= 40 -> Rabs (v f - - (v xx / 2)) <= u -> Rabs (v g - (1 + v f)) <= u ->
  exists y, cos_series L 98 2 xx f g = Ok (Some y) /\ Rabs (v y - cos (v r)) <= 0.05 * / 10 ^ 16.
Proof.
  intros Hr Hx HX Hf Hg. assert (U : 0 < u) by (unfold u; lra).
  pose proof (fun n (H : (1 <= n)%nat) => quotient_le cos_c 12 (v r * v r) n ltac:(lra) ltac:(rewrite <- cos_c1; apply cos_c_ge; lia) HX) as Q1.
  pose proof (fun n (H : (2 <= n)%nat) => quotient_le cos_c 30 (v r * v r) n ltac:(lra) ltac:(rewrite <- cos_c2; apply cos_c_ge; lia) HX) as Q2.
  pose proof (fun n (H : (3 <= n)%nat) => quotient_le cos_c 56 (v r * v r) n ltac:(lra) ltac:(rewrite <- cos_c3; apply cos_c_ge; lia) HX) as Q3.
  assert (Cp : forall n, 0 < cos_c n). { intros n. rewrite cos_c_Z. apply IZR_lt. nia. }
  assert (T1 : term cos_c 1 (v r * v r) 1 = - (v r * v r / 2)). { cbn [term]. replace (cos_c 0) with 2 by (rewrite cos_c_Z; reflexivity). field. }
  assert (P1 : psum cos_c 1 (v r * v r) 1 = 1 - v r * v r / 2). { change (psum cos_c 1 (v r * v r) 1) with (1 + term cos_c 1 (v r * v r) 1). rewrite T1. ring. }
  assert (Fd : Rabs (v f - term cos_c 1 (v r * v r) 1) <= 2 * u).
  { rewrite T1. replace (v f - - (v r * v r / 2)) with ((v f - - (v xx / 2)) - (v xx - v r * v r) / 2) by field. eapply Rle_trans; [apply Rabs_triang|]. rewrite Rabs_Ropp. unfold Rdiv. rewrite (Rabs_mult _ (/ 2)), (Rabs_pos_eq (/ 2)) by lra. lra. }
  assert (Gd : Rabs (v g - psum cos_c 1 (v r * v r) 1) <= 3 * u).
  { rewrite P1. replace (v g - (1 - v r * v r / 2)) with ((v g - (1 + v f)) + (v f - term cos_c 1 (v r * v r) 1)) by (rewrite T1; ring). eapply Rle_trans; [apply Rabs_triang|]. lra. }
  assert (TB : forall n, (1 <= n)%nat -> Rabs (term cos_c 1 (v r * v r) n) <= cos_lim_R n).
  { apply term_bound; [intros; apply Cp|lra| |rewrite T1, Rabs_Ropp, Rabs_pos_eq by lra; cbn; lra]. intros n Hn. destruct n as [|[|[|n]]]; cbn [cos_lim_R]; [lia| | |].
    - specialize (Q1 1%nat ltac:(lia)). nra. - specialize (Q2 2%nat ltac:(lia)). nra. - specialize (Q3 (S (S (S n))) ltac:(lia)). nra. }
  destruct (steps (fun n => 2 * n * (2 * n - 1))%Z cos_c 1 (v r * v r) 1) with (lim := cos_lim_R) (dev := cos_dev) (turns := 98%nat) (n := 1%nat) (xx := xx) (factor := f) (result := g) (d := 3 * u) (b := 21) as (y & Y1 & Y2).
  - intros n _. rewrite cos_c_Z. f_equal. lia.
  - intros n Hn. nia.
  - exact HX.
  - exact TB.
  - intros n. destruct n as [|[|[|n]]]; cbn [cos_lim_R]; lra.
  - intros n Hn. destruct n as [|[|[|[|n]]]]; cbn [cos_dev]; [lia| | | |].
    + specialize (Q1 1%nat ltac:(lia)). nra. + specialize (Q2 2%nat ltac:(lia)). nra. + specialize (Q3 3%nat ltac:(lia)). nra. + specialize (Q3 (S (S (S (S n)))) ltac:(lia)). nra.
  - intros n. destruct n as [|[|[|[|n]]]]; cbn [cos_dev]; lra.
  - lia.
  - lia.
  - exact Hx.
  - exact Fd.
  - exact Gd.
  - rewrite P1. apply Rabs_le. lra.
  - rewrite INR_IZR_INZ. change (IZR (Z.of_nat 98)) with 98. lra.
  - rewrite INR_IZR_INZ. change (IZR (Z.of_nat 98)) with 98. unfold u. lra.
  - exists y. rewrite cos_series_eq. split; [exact Y1|]. change (1 + 98)%nat with 99%nat in Y2. rewrite INR_IZR_INZ in Y2. change (IZR (Z.of_nat 98)) with 98 in Y2.
    pose proof (cos_close (v r) ltac:(lra)) as Z. replace (v y - cos (v r)) with ((v y - psum cos_c 1 (v r * v r) 99) - (cos (v r) - psum cos_c 1 (v r * v r) 99)) by ring.
    eapply Rle_trans; [apply Rabs_triang|]. rewrite Rabs_Ropp. unfold u in *. lra.
Qed.
End Real.
