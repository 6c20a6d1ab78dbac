(** * The operations round correctly *)
From Coq Require Import List ZArith QArith Qabs Qround Qpower Bool Lia Lqa.
From Coq Require Import Floats.SpecFloat.
From Verif Require Import ModelBase ModelFloat SpecDouble SpecFunctions SpecRound ProofFloat ProofDouble ProofDouble2 ProofSnap ProofRound.
Local Open Scope Z_scope.

Lemma threshold_pos : (0 < overflow_threshold)%Q. Proof. reflexivity. Qed.
Lemma rounds_comp : forall q q' x, (q == q')%Q -> rounds q x -> rounds q' x.
Proof.
  intros q q' x E (A & B & C). split; [|split].
  - intros H. rewrite <- E in H. destruct (A H) as (p & P1 & P2 & P3). exists p. split; [exact P1|]. split; [intros p' D; rewrite <- E; apply P2; exact D|intros p' D N Q; rewrite <- E in Q; exact (P3 p' D N Q)].
  - intros H. apply B. rewrite E. exact H.
  - intros H. apply C. rewrite E. exact H.
Qed.
Lemma double_opp : forall p, a_double p -> a_double (- p).
Proof. intros p (m & e & A & B & C). exists (- m), e. split; [lia|]. split; [exact B|]. rewrite dy_opp, C. reflexivity. Qed.
Lemma rounds_neg : forall q x, rounds q x -> rounds (- q) (f_neg x).
Proof.
  intros q x (A & B & C). split; [|split].
  - intros H. rewrite Qabs_opp in H. destruct (A H) as (p & P1 & P2 & P3). exists (- p)%Q. split; [apply neg_exact; exact P1|].
    assert (S : forall r, (Qabs (- q - r) == Qabs (q - - r))%Q) by (intros r; rewrite <- (Qabs_opp (q - - r)); apply Qabs_wd; ring).
    assert (SP : (Qabs (q - - - p) == Qabs (q - p))%Q) by (apply Qabs_wd; ring).
    split.
    + intros p' D. rewrite !S, SP. apply P2. apply double_opp. exact D.
    + intros p' D N. rewrite !S, SP. intros E. assert (EV : even_mantissa x). { apply (P3 (- p')%Q); [apply double_opp; exact D| |exact E]. intros E2. apply N. rewrite <- E2. ring. }
      destruct x; simpl in *; auto.
  - intros H. rewrite C by lra. reflexivity.
  - intros H. rewrite B by lra. reflexivity.
Qed.
Lemma aux_sign : forall m e l, binary_round_aux prec emax true m e l = f_neg (binary_round_aux prec emax false m e l).
Proof.
  intros m e l. unfold binary_round_aux. destruct (shr_fexp prec emax m e l) as [R e1]. destruct (shr_fexp prec emax _ e1 loc_Exact) as [R2 e2].
  destruct (shr_m R2); try reflexivity. destruct (e2 <=? emax - prec); reflexivity.
Qed.
Lemma aux_rounds : forall (s : bool) m e l g, 0 <= m -> e <= fx (Zdigits2 m + e) -> between m l (g * 2 ^ (- e)) -> (0 <= g)%Q ->
  rounds (if s then - g else g) (binary_round_aux prec emax s m e l).
Proof.
  intros s m e l g Hm He H Hg. pose proof (aux_rounds_pos m e l g Hm He H Hg) as R. destruct s; [|exact R]. rewrite aux_sign. apply rounds_neg. exact R.
Qed.
(** A double is rounded to itself. *)
Lemma dy_back : forall m e, (dyadic m e * 2 ^ (- e) == inject_Z m)%Q.
Proof. intros m e. unfold dyadic. rewrite <- Qmult_assoc, <- two_plus. replace (e + - e) with 0 by lia. change (2 ^ 0)%Q with 1%Q. ring. Qed.
Lemma zero_rounds : forall s, rounds 0 (S754_zero s).
Proof.
  intros s. split; [|split; intros H; pose proof threshold_pos; exfalso; lra]. intros _. exists 0%Q. split; [reflexivity|]. split; [|intros; exact I].
  intros p' _. setoid_replace (Qabs (0 - 0)) with 0%Q by reflexivity. apply Qabs_nonneg.
Qed.
Lemma round_rounds : forall s m e, rounds (dyadic (sgn s m) e) (binary_round prec emax s m e).
Proof.
  intros s m e. unfold binary_round. set (k := fexp prec emax (Zpos (digits2_pos m) + e)).
  assert (P : forall m' e', e' <= fx (Zpos (digits2_pos m') + e') -> (dyadic (Zpos m') e' == dyadic (Zpos m) e)%Q -> rounds (dyadic (sgn s m) e) (binary_round_aux prec emax s (Zpos m') e' loc_Exact)).
  { intros m' e' L V. assert (Q0 : (0 < dyadic (Zpos m) e)%Q) by (apply dy_pos; lia).
    apply (rounds_comp (if s then - dyadic (Zpos m) e else dyadic (Zpos m) e)); [destruct s; cbn [sgn]; [change (Zneg m) with (- Zpos m); rewrite dy_opp|]; reflexivity|].
    apply aux_rounds; [lia|exact L| |lra]. simpl. rewrite <- V. apply dy_back. }
  unfold shl_align. fold k. destruct (k - e) as [|d|d] eqn:D.
  - apply P; [fold k; lia|reflexivity].
  - apply P; [fold k; lia|reflexivity].
  - assert (V : (dyadic (Zpos (shift_pos d m)) k == dyadic (Zpos m) e)%Q) by (rewrite shift_value, dy_shift by lia; replace (k + Zpos d) with e by lia; reflexivity).
    apply P; [|exact V]. rewrite (magnitude _ _ _ _ V). fold k. lia.
Qed.
Lemma normalize_rounds : forall m e z, rounds (dyadic m e) (binary_normalize prec emax m e z).
Proof.
  intros [|m|m] e z; cbn [binary_normalize].
  - apply (rounds_comp 0); [rewrite dy_zero; reflexivity|apply zero_rounds].
  - apply (round_rounds false).
  - apply (round_rounds true).
Qed.
Lemma exact_rounds : forall x p, stands_for x p -> rounds p x.
Proof.
  intros x p H. destruct x as [s|s| |s m e]; try contradiction.
  - apply (rounds_comp 0); [symmetry; exact H|apply zero_rounds].
  - destruct H as [N H]. apply (rounds_comp (dyadic (sgn s m) e)); [symmetry; exact H|].
    assert (E : binary_round prec emax s m e = S754_finite s m e).
    { pose proof (round_rounds s m e) as R. assert (SF : stands_for (binary_round prec emax s m e) (dyadic (sgn s m) e)).
      { pose proof (stands_double (S754_finite s m e) (dyadic (sgn s m) e) (conj N (Qeq_refl _))) as AD.
        pose proof (normalize_double (sgn s m) e false _ (Qeq_refl _) AD) as SN. destruct s; exact SN. }
      apply (double_unique _ _ _ SF); [exact (conj N (Qeq_refl _))|]. intros Z. apply dy_is_zero in Z. destruct s; discriminate. }
    rewrite <- E. apply round_rounds.
Qed.

Lemma add_rounds : forall x y p q, stands_for x p -> stands_for y q -> rounds (p + q) (f_add x y).
Proof.
  intros x y p q Hx Hy. unfold f_add, SFadd. destruct x as [s|s| |s m e]; try contradiction; destruct y as [t|t| |t n f]; try contradiction.
  - simpl in Hx, Hy. apply (rounds_comp 0); [rewrite Hx, Hy; reflexivity|]. destruct (Bool.eqb s t); apply zero_rounds.
  - simpl in Hx. apply (rounds_comp q); [rewrite Hx; ring|apply exact_rounds; exact Hy].
  - simpl in Hy. apply (rounds_comp p); [rewrite Hy; ring|apply exact_rounds; exact Hx].
  - destruct Hx as [_ Hx], Hy as [_ Hy]. eapply rounds_comp; [|apply normalize_rounds].
    rewrite !cond_sgn, dy_add, !align_value by lia. rewrite Hx, Hy. reflexivity.
Qed.
Lemma sub_rounds : forall x y p q, stands_for x p -> stands_for y q -> rounds (p - q) (f_sub x y).
Proof.
  intros x y p q Hx Hy. unfold f_sub, SFsub. destruct x as [s|s| |s m e]; try contradiction; destruct y as [t|t| |t n f]; try contradiction.
  - simpl in Hx, Hy. apply (rounds_comp 0); [rewrite Hx, Hy; reflexivity|]. destruct (Bool.eqb s (negb t)); apply zero_rounds.
  - simpl in Hx. apply (rounds_comp (- q)); [rewrite Hx; ring|]. apply exact_rounds. apply (neg_exact (S754_finite t n f)). exact Hy.
  - simpl in Hy. apply (rounds_comp p); [rewrite Hy; ring|apply exact_rounds; exact Hx].
  - destruct Hx as [_ Hx], Hy as [_ Hy]. eapply rounds_comp; [|apply normalize_rounds].
    rewrite !cond_sgn. unfold Z.sub. rewrite dy_add, dy_opp, !align_value by lia. rewrite Hx, Hy. reflexivity.
Qed.
Lemma sgn_split : forall s m e, (dyadic (sgn s m) e == (if s then -1 else 1) * dyadic (Zpos m) e)%Q.
Proof. intros s m e. rewrite sgn_opp. destruct s; [rewrite dy_opp|]; ring. Qed.
Lemma mul_rounds : forall x y p q, stands_for x p -> stands_for y q -> rounds (p * q) (f_mul x y).
Proof.
  intros x y p q Hx Hy. unfold f_mul, SFmul. destruct x as [s|s| |s m e]; try contradiction; destruct y as [t|t| |t n f]; try contradiction.
  - simpl in *. apply (rounds_comp 0); [rewrite Hx; ring|apply zero_rounds].
  - simpl in Hx. apply (rounds_comp 0); [rewrite Hx; ring|apply zero_rounds].
  - simpl in Hy. apply (rounds_comp 0); [rewrite Hy; ring|apply zero_rounds].
  - destruct Hx as [Nx Hx], Hy as [Ny Hy]. fold (sgn s m) in Hx. fold (sgn t n) in Hy.
    assert (P : (0 < dyadic (Zpos (m * n)) (e + f))%Q) by (apply dy_pos; lia).
    apply (rounds_comp (if xorb s t then - dyadic (Zpos (m * n)) (e + f) else dyadic (Zpos (m * n)) (e + f))).
    + rewrite Hx, Hy, !sgn_split, Pos2Z.inj_mul. destruct s, t; cbn [xorb]; rewrite dy_mul; ring.
    + apply aux_rounds; [lia|apply normal_low; assumption|simpl; apply dy_back|lra].
Qed.

Lemma location_between : forall n q r, 0 < n -> 0 <= r < n -> between q (new_location n r) ((inject_Z n * inject_Z q + inject_Z r) / inject_Z n).
Proof.
  intros n q r Hn Hr. assert (N0 : ~ (inject_Z n == 0)%Q) by (intros E; change 0%Q with (inject_Z 0) in E; rewrite inject_Z_injective in E; lia).
  assert (NP : (0 < inject_Z n)%Q) by (change 0%Q with (inject_Z 0); rewrite <- Zlt_Qlt; lia).
  assert (V : ((inject_Z n * inject_Z q + inject_Z r) / inject_Z n == inject_Z q + inject_Z r / inject_Z n)%Q) by (field; exact N0).
  assert (I : (/ inject_Z n * inject_Z n == 1)%Q) by (rewrite Qmult_comm; apply Qmult_inv_r; exact N0).
  assert (IP : (0 < / inject_Z n)%Q) by (apply Qinv_lt_0_compat; exact NP).
  assert (F : forall a b : Z, a < b -> (inject_Z a * / inject_Z n < inject_Z b * / inject_Z n)%Q) by (intros a b L; apply Qmult_lt_compat_r; [exact IP|rewrite <- Zlt_Qlt; exact L]).
  assert (M2 : forall a, (inject_Z (2 * a) * / inject_Z n == 2 * (inject_Z a * / inject_Z n))%Q) by (intros a; rewrite inject_Z_mult; change (inject_Z 2) with 2%Q; ring).
  assert (Hz : Zeq_bool r 0 = (r =? 0)) by (unfold Zeq_bool, Z.eqb; destruct r; reflexivity).
  unfold Qdiv in *.
  assert (LT : 0 < r -> 2 * r < n -> between q (loc_Inexact Lt) ((inject_Z n * inject_Z q + inject_Z r) * / inject_Z n)).
  { intros R0 L. pose proof (F 0 r ltac:(lia)) as F1. change (inject_Z 0) with 0%Q in F1. simpl. pose proof (F _ _ L) as F3. rewrite M2 in F3. rewrite V. lra. }
  assert (GT : n < 2 * r -> between q (loc_Inexact Gt) ((inject_Z n * inject_Z q + inject_Z r) * / inject_Z n)).
  { intros L. pose proof (F r n ltac:(lia)) as F2. simpl. pose proof (F _ _ L) as F3. rewrite M2 in F3. rewrite V. lra. }
  assert (EX : r = 0 -> between q loc_Exact ((inject_Z n * inject_Z q + inject_Z r) * / inject_Z n)).
  { intros ->. simpl. rewrite V. change (inject_Z 0) with 0%Q. ring. }
  unfold new_location. destruct (Z.even n) eqn:Ev.
  - unfold new_location_even. rewrite Hz. destruct (Z.eqb_spec r 0) as [R0|R0]; [apply EX; exact R0|].
    destruct (Z.compare_spec (2 * r) n) as [E|L|L]; [|apply LT; lia|apply GT; lia]. simpl. rewrite V. assert (F3 := M2 r). rewrite E in F3. lra.
  - unfold new_location_odd. rewrite Hz. destruct (Z.eqb_spec r 0) as [R0|R0]; [apply EX; exact R0|].
    assert (Odd : 2 * r <> n) by (intros E; rewrite <- E, Z.even_mul in Ev; discriminate).
    destruct (Z.compare_spec (2 * r + 1) n) as [E|L|L]; [apply LT; lia|apply LT; lia|apply GT; lia].
Qed.
Lemma digits_of : forall q k, 0 <= k -> 2 ^ k <= q -> k + 1 <= Zdigits2 q.
Proof.
  intros q k Hk H. pose proof (Z.pow_pos_nonneg 2 k). destruct (digits_pow q ltac:(lia)) as [[_ D] D0].
  destruct (Z.le_gt_cases (k + 1) (Zdigits2 q)) as [L|L]; [exact L|exfalso]. pose proof (Z.pow_le_mono_r 2 (Zdigits2 q) k ltac:(lia) ltac:(lia)). lia.
Qed.
Lemma div_core_rounds : forall m e n f, exists a e' l, SFdiv_core_binary prec emax (Zpos m) e (Zpos n) f = (a, e', l) /\ 0 <= a /\
  e' <= fx (Zdigits2 a + e') /\ between a l (dyadic (Zpos m) e / dyadic (Zpos n) f * 2 ^ (- e')).
Proof.
  intros m e n f. unfold SFdiv_core_binary. cbn [Zdigits2]. set (D := Zpos (digits2_pos m) + e - (Zpos (digits2_pos n) + f)).
  set (e' := Z.min (fexp prec emax D) (e - f)). assert (L2 : e' <= e - f) by (unfold e'; lia).
  assert (S : match e - f - e' with Zpos _ => Z.shiftl (Zpos m) (e - f - e') | Z0 => Zpos m | Zneg _ => 0 end = Zpos m * 2 ^ (e - f - e')).
  { destruct (e - f - e') as [|q|q] eqn:Q; [rewrite Z.pow_0_r; lia|apply Z.shiftl_mul_pow2; lia|lia]. }
  rewrite S. pose proof (Z.pow_pos_nonneg 2 (e - f - e') ltac:(lia) ltac:(lia)) as PP. set (w := Zpos m * 2 ^ (e - f - e')) in *.
  pose proof (Z_div_mod w (Zpos n) ltac:(lia)) as DE. destruct (Z.div_eucl w (Zpos n)) as [a r]. destruct DE as [D1 D2].
  assert (W0 : 0 < w) by (unfold w; nia). assert (A0 : 0 <= a) by nia.
  exists a, e', (new_location (Zpos n) r). split; [reflexivity|]. split; [exact A0|]. split.
  - (* the quotient has enough digits *)
    destruct (Z.le_gt_cases e' (-1074)) as [E|E]; [rewrite fx_def; lia|].
    assert (FD : e' <= D - 53) by (unfold e' in *; rewrite fx_def in *; lia).
    assert (B : 2 ^ (D - 1 - e') <= a).
    { pose proof (digits_bounds m) as [M1 _]. pose proof (digits_bounds n) as [_ N2].
      assert (X : Zpos n * 2 ^ (D - 1 - e') <= w).
      { apply Z.le_trans with (2 ^ Zpos (digits2_pos n) * 2 ^ (D - 1 - e')); [apply Z.mul_le_mono_nonneg_r; [apply Z.pow_nonneg; lia|lia]|].
        rewrite <- Z.pow_add_r by lia. replace (Zpos (digits2_pos n) + (D - 1 - e')) with (Zpos (digits2_pos m) - 1 + (e - f - e')) by (unfold D; lia).
        rewrite Z.pow_add_r by lia. unfold w. apply Z.mul_le_mono_nonneg_r; [lia|exact M1]. }
      destruct (Z.le_gt_cases (2 ^ (D - 1 - e')) a) as [G|G]; [exact G|exfalso]. nia. }
    pose proof (digits_of a (D - 1 - e') ltac:(lia) B) as DG. rewrite fx_def.
    assert (e' <= fexp prec emax D) by (unfold e'; lia). rewrite fx_def in *. lia.
  - apply (between_comp _ _ _ _) with (2 := location_between (Zpos n) a r ltac:(lia) D2).
    rewrite <- inject_Z_mult, <- inject_Z_plus, <- D1. unfold w. rewrite inject_Z_mult, two_pow by lia. unfold dyadic.
    replace (e - f - e') with (e + (- f + - e')) by lia. rewrite !two_plus.
    assert (I : (2 ^ (- f) * 2 ^ f == 1)%Q) by (rewrite <- two_plus; replace (- f + f) with 0 by lia; reflexivity).
    pose proof (two_pos f) as P1. pose proof (two_pos (- f)) as P2.
    assert (J : (/ 2 ^ f == 2 ^ (- f))%Q). { apply (Qmult_inj_r _ _ (2 ^ f)); [lra|]. rewrite I, Qmult_comm. apply Qmult_inv_r. lra. }
    unfold Qdiv. rewrite (Qinv_mult_distr (inject_Z (Zpos n))), J. ring.
Qed.
Lemma div_rounds : forall x y p q, stands_for x p -> stands_for y q -> ~ (q == 0)%Q -> rounds (p / q) (f_div x y).
Proof.
  intros x y p q Hx Hy Hq. unfold f_div, SFdiv. destruct x as [s|s| |s m e]; try contradiction; destruct y as [t|t| |t n f]; try contradiction; try (simpl in Hy; contradiction).
  - simpl in Hx. apply (rounds_comp 0); [rewrite Hx; field; exact Hq|apply zero_rounds].
  - destruct Hx as [Nx Hx], Hy as [Ny Hy]. fold (sgn s m) in Hx. fold (sgn t n) in Hy. destruct (div_core_rounds m e n f) as (a & e' & l & -> & A & B & C).
    assert (Pm : (0 < dyadic (Zpos m) e)%Q) by (apply dy_pos; lia). assert (Pn : (0 < dyadic (Zpos n) f)%Q) by (apply dy_pos; lia).
    apply (rounds_comp (if xorb s t then - (dyadic (Zpos m) e / dyadic (Zpos n) f) else dyadic (Zpos m) e / dyadic (Zpos n) f)).
    + rewrite Hx, Hy, !sgn_split. assert (~ (dyadic (Zpos n) f == 0)%Q) by lra. destruct s, t; cbn [xorb]; field; assumption.
    + apply aux_rounds; [exact A|exact B|exact C|]. apply Qlt_le_weak. unfold Qdiv. apply Qmult_lt_0_compat; [exact Pm|apply Qinv_lt_0_compat; exact Pn].
Qed.
Lemma of_Z_rounds : forall z, rounds (inject_Z z) (f_of_Z z).
Proof. intros z. apply (rounds_comp (dyadic z 0)); [unfold dyadic; change (2 ^ 0)%Q with 1%Q; ring|]. apply normalize_rounds. Qed.
Lemma f_of_rounds : forall m e, rounds (dyadic m e) (f_of m e). Proof. intros m e. apply normalize_rounds. Qed.
