(** * Decimal functions that do not panic *)
From Coq Require Import List NArith ZArith QArith Qabs Qround Qpower Bool Lia Lqa String.
From Verif Require Import ModelBase ModelContext ModelText ModelDefault ModelFloat ModelNum ModelOps ModelDecimal
  SpecText SpecExpr SpecOps SpecDecimal ProofText ProofDefault ProofBuild ProofCtx ProofDecimal ProofDecimal2.
Import ListNotations.
Local Open Scope Z_scope.

Section Trig.
Context {D : Type}.
Variable L : dlib D.
Variable value : D -> Q.
Hypothesis EX : exact_decimals L value.
Variable fuel : nat.
Notation "| q |" := (Qabs q) (at level 30, q at level 200, format "| q |") : Q_scope.

Lemma abs_le : forall q b, (|q| <= b <-> - b <= q /\ q <= b)%Q.
Proof. intros q b. apply Qabs_Qle_condition. Qed.
Lemma abs_mul_le : forall p q a b, (|p| <= a -> |q| <= b -> |p * q| <= a * b)%Q.
Proof.
  intros p q a b Hp Hq. rewrite Qabs_Qmult. pose proof (Qabs_nonneg p). pose proof (Qabs_nonneg q). apply Qle_trans with (a * |q|)%Q.
  - apply Qmult_le_compat_r; assumption. - rewrite !(Qmult_comm a). apply Qmult_le_compat_r; [assumption|]. lra.
Qed.
Definition eps : Q := 1 # 100000000000000000000.
(** A result of moderate size is there, and close to the exact one. *)
Lemma moderate : forall q r, computes value q r -> (|q| <= 100000000)%Q -> exists z, r = Some z /\ (|value z - q| <= eps)%Q.
Proof.
  intros q r (_ & _ & C) Hq. destruct C as (z & -> & Z); [eapply Qle_trans; [exact Hq|discriminate]|]. exists z. split; [reflexivity|].
  specialize (Z 20 ltac:(lia)). assert (S : (|q| * inject_Z (10 ^ 20) < inject_Z (2 ^ 95))%Q).
  { apply Qle_lt_trans with (100000000 * inject_Z (10 ^ 20))%Q; [apply Qmult_le_compat_r; [exact Hq|discriminate]|reflexivity]. }
  specialize (Z S). change (inject_Z (10 ^ 20)) with (100000000000000000000)%Q in Z. unfold eps. 
  setoid_replace (1 # 100000000000000000000)%Q with (/ 100000000000000000000)%Q by reflexivity. 
  apply Qle_shift_div_l with (c := 100000000000000000000%Q) (a := (|value z - q|)%Q) (b := 1%Q) in Z; [|reflexivity]. eapply Qle_trans; [exact Z|discriminate].
Qed.
(** ... hence bounded. *)
Lemma bounded : forall q r b, computes value q r -> (|q| <= b)%Q -> (b <= 100000000)%Q -> exists z, r = Some z /\ (|value z| <= b + eps)%Q /\ (|value z - q| <= eps)%Q.
Proof.
  intros q r b Hc Hq Hb. destruct (moderate q r Hc ltac:(lra)) as (z & -> & Z). exists z. split; [reflexivity|]. split; [|exact Z].
  rewrite abs_le in *. lra.
Qed.

(** ** [approx] *)
Lemma rep_sub_int : forall x k, representable x -> (|x - inject_Z k| <= 1 # 2)%Q -> representable (x - inject_Z k).
Proof.
  intros x k (c & s & Hs & Hc & E) Hk. exists (c - k * 10 ^ s), s. split; [exact Hs|].
  assert (T : 1 <= 10 ^ s <= 10 ^ 28). { split; [pose proof (Z.pow_pos_nonneg 10 s); lia|apply Z.pow_le_mono_r; lia]. }
  assert (Q1 : ((x - inject_Z k) * inject_Z (10 ^ s) == inject_Z (c - k * 10 ^ s))%Q).
  { unfold Z.sub. rewrite inject_Z_plus, inject_Z_opp, inject_Z_mult, <- E. ring. }
  split; [|exact Q1]. assert (Q2 : (|inject_Z (c - k * 10 ^ s)| <= (1 # 2) * inject_Z (10 ^ 28))%Q).
  { rewrite <- Q1. apply abs_mul_le; [exact Hk|]. change (|inject_Z (10 ^ s)|)%Q with (inject_Z (Z.abs (10 ^ s))). rewrite <- Zle_Qle. lia. }
  change (|inject_Z (c - k * 10 ^ s)|)%Q with (inject_Z (Z.abs (c - k * 10 ^ s))) in Q2. setoid_replace ((1 # 2) * inject_Z (10 ^ 28))%Q with (inject_Z 5000000000000000000000000000) in Q2 by reflexivity.
  rewrite <- Zle_Qle in Q2. rewrite limit_val. lia.
Qed.
Lemma precision_val : (value (PRECISION L) == 1 # 10000000000000000)%Q.
Proof. pose proof (ed_literal _ _ EX 1 16%N ltac:(reflexivity) ltac:(lia)) as P. fold (PRECISION L) in P. change (inject_Z (10 ^ Z.of_N 16)) with 10000000000000000%Q in P. rewrite <- (Qmult_1_r (value (PRECISION L))). setoid_replace 1%Q with (10000000000000000 * (1 # 10000000000000000))%Q at 1 by reflexivity. rewrite Qmult_assoc, P. reflexivity. Qed.
(** The result is the nearest integer if that is very near, else the argument. *)
Lemma approx_ok : forall x, exists y, approx L x = Ok (Some y) /\
  ((exists k, (value y == inject_Z k)%Q /\ (|value x - inject_Z k| <= 1 # 2)%Q) \/ (y = x /\ forall k, (value (d_round L x) == inject_Z k)%Q -> (1 # 10000000000000000 <= |value x - inject_Z k|)%Q)).
Proof.
  intros x. unfold approx, approx_eq. destruct (ed_round _ _ EX x) as (k & K1 & K2).
  destruct (computes_exact value _ _ (ed_sub _ _ EX x (d_round L x))) as (z & Z1 & Z2).
  { apply (rep_comp (value x - inject_Z k)); [rewrite K1; reflexivity|]. apply rep_sub_int; [apply (ed_representable _ _ EX)|exact K2]. }
  unfold d_sub. rewrite Z1. cbn [must]. destruct (d_lt L (d_abs L z) (PRECISION L)) eqn:B.
  - exists (d_round L x). split; [reflexivity|]. left. exists k. split; [exact K1|exact K2].
  - exists x. split; [reflexivity|]. right. split; [reflexivity|]. intros k' K'. rewrite (d_lt_false L value EX), precision_val, (ed_abs _ _ EX), Z2, K1 in B.
    rewrite K1 in K'. rewrite <- K'. exact B.
Qed.
Lemma approx_bound : forall x b, (|value x| <= b)%Q -> exists y, approx L x = Ok (Some y) /\ (|value y| <= b + 1)%Q.
Proof.
  intros x b Hb. destruct (approx_ok x) as (y & Y1 & [(k & K1 & K2)|(-> & _)]); [exists y|exists x]; (split; [exact Y1|]); rewrite ?K1; rewrite abs_le in *; lra.
Qed.
(** If it is not zero, it is not too near to zero. *)
Lemma approx_away : forall x y, approx L x = Ok (Some y) -> ~ (value y == 0)%Q -> (1 # 10000000000000000 <= |value y|)%Q.
Proof.
  intros x y Hy Hn. destruct (approx_ok x) as (y' & Y1 & H). rewrite Hy in Y1. injection Y1 as <-. destruct H as [(k & K1 & K2)|(-> & H)].
  - rewrite K1 in *. assert (k <> 0) by (intros ->; apply Hn; reflexivity). change (|inject_Z k|)%Q with (inject_Z (Z.abs k)). apply Qle_trans with (inject_Z 1); [discriminate|]. rewrite <- Zle_Qle. lia.
  - destruct (ed_round _ _ EX x) as (k & K1 & K2). specialize (H k K1). destruct (Z.eq_dec k 0) as [->|Nk].
    + setoid_replace (value x - inject_Z 0)%Q with (value x) in H by (change (inject_Z 0) with 0%Q; ring). exact H.
    + assert (1 <= |inject_Z k|)%Q. { change (|inject_Z k|)%Q with (inject_Z (Z.abs k)). change 1%Q with (inject_Z 1). rewrite <- Zle_Qle. lia. }
      pose proof (Qabs_triangle (inject_Z k - value x) (value x)) as T. setoid_replace (inject_Z k - value x + value x)%Q with (inject_Z k) in T by ring.
      rewrite (Qabs_Qminus (inject_Z k)) in T. lra.
Qed.

(** ** Angles *)
Definition two_pi : Q := 62831853071795864769252867666 # 10000000000000000000000000000.
Lemma lit28 : forall c, Z.abs c < limit -> (value (d_lit L c 28) == c # 10000000000000000000000000000)%Q.
Proof.
  intros c Hc. pose proof (ed_literal _ _ EX c 28%N Hc ltac:(lia)) as P. change (inject_Z (10 ^ Z.of_N 28)) with 10000000000000000000000000000%Q in P.
  rewrite <- (Qmult_1_r (value _)). setoid_replace 1%Q with (10000000000000000000000000000 * (1 # 10000000000000000000000000000))%Q at 1 by reflexivity. rewrite Qmult_assoc, P.
  unfold Qeq. simpl. lia.
Qed.
Lemma truncated_lt : forall q, (|q - inject_Z (truncated q)| < 1)%Q.
Proof.
  intros q. unfold truncated. pose proof (Qfloor_le q). pose proof (Qlt_floor q). pose proof (Qle_ceiling q). pose proof (Qceiling_lt q).
  rewrite !inject_Z_plus in *. change (inject_Z 1) with 1%Q in *. replace (Qceiling q - 1) with (Qceiling q + -1) in * by lia. rewrite !inject_Z_plus in *. change (inject_Z (-1)) with (-1)%Q in *.
  apply Qabs_Qlt_condition. destruct (Qle_bool 0 q); lra.
Qed.
Lemma rem_bound : forall x y, ~ (value y == 0)%Q -> exists z, d_rem L x y = Some z /\ (|value z| <= |value y|)%Q.
Proof.
  intros x y Hy. destruct (ed_rem _ _ EX x y Hy) as (z & Z1 & Z2). exists z. split; [exact Z1|]. rewrite Z2.
  setoid_replace (value x - value y * inject_Z (truncated (value x / value y)))%Q with (value y * (value x / value y - inject_Z (truncated (value x / value y))))%Q by (field; exact Hy).
  rewrite <- (Qmult_1_r (|value y|)). apply abs_mul_le; [apply Qle_refl|]. apply Qlt_le_weak. apply truncated_lt.
Qed.
Lemma angle : forall x, exists r, d_rem L x (PI_2 L) = Some r /\ (|value r| <= 629 # 100)%Q.
Proof.
  intros x. assert (P : (value (PI_2 L) == two_pi)%Q) by (apply lit28; reflexivity). destruct (rem_bound x (PI_2 L)) as (r & R1 & R2); [rewrite P; discriminate|].
  exists r. split; [exact R1|]. rewrite P in R2. eapply Qle_trans; [exact R2|]. discriminate.
Qed.
Lemma close_eq : forall x c k, Z.abs c < limit -> (|value x| <= 10)%Q -> exists b, approx_eq L x (d_lit L c 28) (PRECISION L) k = k b.
Proof.
  intros x c k Hc Hx. unfold approx_eq. destruct (computes_some value _ _ (ed_sub _ _ EX x (d_lit L c 28))) as (z & Z).
  - rewrite (lit28 c Hc). apply Qle_trans with (10 + 10)%Q; [|discriminate]. pose proof (Qabs_triangle (value x) (- (c # 10000000000000000000000000000))) as T. rewrite Qabs_opp in T. unfold Qminus.
    assert (Q1 : (|c # 10000000000000000000000000000| <= 10)%Q). { unfold Qle, Qabs. simpl. rewrite limit_val in Hc. lia. } lra.
  - unfold d_sub. rewrite Z. cbn [must]. eexists. reflexivity.
Qed.
Lemma int_val : forall z, Z.abs z < limit -> (value (int L z) == inject_Z z)%Q. Proof. apply (lit_val L value EX). Qed.

(** The terms: [lim n] bounds the factor before the term [n]. *)
Section Series.
Variable coef : Z -> Z.
Variable lim : Z -> Q.
Hypothesis coef_pos : forall n, 1 <= n <= 200 -> 1 <= coef n < 1000000.
Hypothesis lim_small : forall n, (0 <= lim n)%Q /\ (lim n <= 100)%Q.
Variable n0 : Z.
Hypothesis n0_pos : 1 <= n0.
Hypothesis lim_step : forall n, n0 <= n <= 200 -> (lim n * (40 / inject_Z (coef n) + eps) + eps <= lim (n + 1))%Q.
Fixpoint series (turns : nat) (n : Z) (xx factor result : D) : @O D :=
  match turns with
  | 0%nat => some result
  | S turns' =>
      must (d_div L (d_neg L xx) (int L (coef n))) (fun q =>
      must (d_mul L factor q) (fun factor' =>
      must (d_add L result factor') (fun result' =>
      series turns' (n + 1) xx factor' result')))
  end.
Lemma series_ok : forall turns n xx factor result b, n0 <= n -> n + Z.of_nat turns <= 200 -> (|value xx| <= 40)%Q -> (|value factor| <= lim n)%Q -> (|value result| <= b)%Q ->
  (b + inject_Z (Z.of_nat turns) * 101 <= 1000000)%Q -> (0 <= b)%Q ->
  exists y, series turns n xx factor result = Ok (Some y) /\ (|value y| <= b + inject_Z (Z.of_nat turns) * 101)%Q.
Proof.
  induction turns as [|t IH]; intros n xx factor result b Hn Ht Hxx Hf Hr Hb Hb0; cbn [series].
  - exists result. split; [reflexivity|]. change (inject_Z (Z.of_nat 0)) with 0%Q. lra.
  - pose proof (coef_pos n ltac:(lia)) as C. assert (V : (value (int L (coef n)) == inject_Z (coef n))%Q) by (apply int_val; rewrite limit_val; lia).
    assert (C0 : (0 < inject_Z (coef n))%Q) by (change 0%Q with (inject_Z 0); rewrite <- Zlt_Qlt; lia).
    assert (C1 : (1 <= inject_Z (coef n))%Q) by (change 1%Q with (inject_Z 1); rewrite <- Zle_Qle; lia).
    assert (N0 : ~ (value (int L (coef n)) == 0)%Q) by (rewrite V; lra).
    assert (Q0 : (|value (d_neg L xx) / value (int L (coef n))| <= 40 / inject_Z (coef n))%Q).
    { unfold Qdiv. apply abs_mul_le; [rewrite (ed_neg _ _ EX), Qabs_opp; exact Hxx|]. rewrite V. rewrite Qabs_pos; [apply Qle_refl|]. apply Qlt_le_weak. apply Qinv_lt_0_compat. exact C0. }
    assert (Q40 : (40 / inject_Z (coef n) <= 40)%Q) by (apply Qle_shift_div_r; [exact C0|]; lra).
    destruct (bounded _ _ (40 / inject_Z (coef n)) (ed_div _ _ EX (d_neg L xx) (int L (coef n)) N0) Q0 ltac:(lra)) as (q & Q1 & Q2 & _).
    unfold d_div. rewrite Q1. cbn [must]. destruct (lim_small n) as [L0 L1]. destruct (lim_small (n + 1)) as [L2 L3]. pose proof (lim_step n ltac:(lia)) as St.
    assert (E0 : (0 < eps)%Q) by reflexivity.
    assert (F0 : (|value factor * value q| <= lim n * (40 / inject_Z (coef n) + eps))%Q) by (apply abs_mul_le; assumption).
    destruct (bounded _ _ _ (ed_mul _ _ EX factor q) F0 ltac:(lra)) as (f' & F1 & F2 & _). unfold d_mul. rewrite F1. cbn [must].
    assert (Fl : (|value f'| <= lim (n + 1))%Q) by lra.
    assert (I : (inject_Z (Z.of_nat (S t)) == inject_Z (Z.of_nat t) + 1)%Q) by (rewrite Nat2Z.inj_succ; unfold Z.succ; rewrite inject_Z_plus; reflexivity).
    assert (I0 : (0 <= inject_Z (Z.of_nat t))%Q) by (change 0%Q with (inject_Z 0); rewrite <- Zle_Qle; lia). rewrite I in Hb.
    assert (R0 : (|value result + value f'| <= b + 100)%Q). { pose proof (Qabs_triangle (value result) (value f')). lra. }
    destruct (bounded _ _ _ (ed_add _ _ EX result f') R0 ltac:(lra)) as (r' & R1 & R2 & _). unfold d_add. rewrite R1. cbn [must].
    assert (E1 : (eps <= 1)%Q) by discriminate.
    destruct (IH (n + 1) xx f' r' (b + 101)%Q) as (y & Y1 & Y2); [lia|lia|exact Hxx|exact Fl|lra|lra|lra|]. exists y. split; [exact Y1|]. rewrite I. lra.
Qed.
End Series.

Definition sin_lim (n : Z) : Q := if n <=? 1 then 629 # 100 else if n =? 2 then 42 else 88.
Definition cos_lim (n : Z) : Q := if n <=? 2 then 201 # 10 else if n =? 3 then 68 else 92.
Lemma step_le : forall l l' c m, (0 <= l)%Q -> 0 < m -> m <= c -> (l * (40 / inject_Z m + eps) + eps <= l')%Q -> (l * (40 / inject_Z c + eps) + eps <= l')%Q.
Proof.
  intros l l' c m Hl Hm Hc H. eapply Qle_trans; [|exact H]. assert (X : (40 / inject_Z c <= 40 / inject_Z m)%Q).
  { unfold Qdiv. rewrite !(Qmult_comm 40). apply Qmult_le_compat_r; [|discriminate]. unfold Qle, Qinv, inject_Z. destruct c, m; simpl; lia. }
  apply Qplus_le_compat; [|apply Qle_refl]. rewrite !(Qmult_comm l). apply Qmult_le_compat_r; [|exact Hl]. lra.
Qed.
Lemma sin_series_ok : forall xx r, (|value xx| <= 40)%Q -> (|value r| <= 629 # 100)%Q -> exists y, sin_series L 99 1 xx r r = Ok (Some y) /\ (|value y| <= 20000)%Q.
Proof.
  intros xx r Hx Hr. destruct (series_ok (fun n => (2 * n + 1) * (2 * n)) sin_lim) with (n0 := 1) (turns := 99%nat) (n := 1) (xx := xx) (factor := r) (result := r) (b := (629 # 100)%Q) as (y & Y1 & Y2);
    try lia; try assumption; try discriminate.
  - intros n Hn. nia.
  - intros n. unfold sin_lim. destruct (n <=? 1); [split; discriminate|]. destruct (n =? 2); split; discriminate.
  - intros n Hn. unfold sin_lim. destruct (n <=? 1) eqn:A.
    + assert (n = 1) by lia. subst. discriminate.
    + destruct (n + 1 <=? 1) eqn:B; [lia|]. destruct (n =? 2) eqn:C; [assert (n = 2) by lia; subst; discriminate|]. destruct (n + 1 =? 2) eqn:D'; [lia|].
      apply (step_le _ _ _ 42); [discriminate|lia|nia|discriminate].
  - exists y. split; [|eapply Qle_trans; [exact Y2|discriminate]]. rewrite <- Y1. clear. 
    assert (G : forall t n f s, sin_series L t n xx f s = series (fun n => (2 * n + 1) * (2 * n)) t n xx f s); [|apply G].
    induction t as [|t IH]; intros n f s; cbn [sin_series series]; [reflexivity|]. unfold must. destruct (d_div _ _ _); [|reflexivity]. destruct (d_mul _ _ _); [|reflexivity]. destruct (d_add _ _ _); [apply IH|reflexivity].
Qed.
Lemma cos_series_ok : forall xx f r, (|value xx| <= 40)%Q -> (|value f| <= 201 # 10)%Q -> (|value r| <= 22)%Q -> exists y, cos_series L 98 2 xx f r = Ok (Some y) /\ (|value y| <= 20000)%Q.
Proof.
  intros xx f r Hx Hf Hr. destruct (series_ok (fun n => 2 * n * (2 * n - 1)) cos_lim) with (n0 := 2) (turns := 98%nat) (n := 2) (xx := xx) (factor := f) (result := r) (b := 22%Q) as (y & Y1 & Y2);
    try lia; try assumption; try discriminate.
  - intros n Hn. nia.
  - intros n. unfold cos_lim. destruct (n <=? 2); [split; discriminate|]. destruct (n =? 3); split; discriminate.
  - intros n Hn. unfold cos_lim. destruct (n <=? 2) eqn:A.
    + assert (n = 2) by lia. subst. discriminate.
    + destruct (n + 1 <=? 2) eqn:B; [lia|]. destruct (n =? 3) eqn:C; [assert (n = 3) by lia; subst; discriminate|]. destruct (n + 1 =? 3) eqn:D'; [lia|].
      apply (step_le _ _ _ 56); [discriminate|lia|nia|discriminate].
  - exists y. split; [|eapply Qle_trans; [exact Y2|discriminate]]. rewrite <- Y1. clear - xx.
    assert (G : forall t n f s, cos_series L t n xx f s = series (fun n => 2 * n * (2 * n - 1)) t n xx f s); [|apply G].
    induction t as [|t IH]; intros n ff ss; cbn [cos_series series]; [reflexivity|]. unfold must. destruct (d_div _ _ _); [|reflexivity]. destruct (d_mul _ _ _); [|reflexivity]. destruct (d_add _ _ _); [apply IH|reflexivity].
Qed.

(** ** Sine, cosine, tangent *)
Lemma square_ok : forall r, (|value r| <= 629 # 100)%Q -> exists xx, d_mul L r r = Some xx /\ (|value xx| <= 40)%Q.
Proof.
  intros r Hr. assert (S : (|value r * value r| <= (629 # 100) * (629 # 100))%Q) by (apply abs_mul_le; exact Hr).
  destruct (bounded _ _ _ (ed_mul _ _ EX r r) S ltac:(discriminate)) as (xx & X1 & X2 & _). exists xx. split; [exact X1|]. eapply Qle_trans; [exact X2|discriminate].
Qed.
Lemma sin_ok : forall x, exists y, checked_sin L x = Ok (Some y) /\ (|value y| <= 20001)%Q.
Proof.
  intros x. unfold checked_sin. destruct (angle x) as (r & -> & R). cbn [must].
  assert (Rb : (|value r| <= 10)%Q) by (eapply Qle_trans; [exact R|discriminate]).
  assert (Ra : (|value (d_abs L r)| <= 10)%Q). { rewrite (ed_abs _ _ EX). rewrite (Qabs_pos (|value r|)); [exact Rb|apply Qabs_nonneg]. }
  assert (V : forall y z, (value y == inject_Z z)%Q -> Z.abs z <= 20001 -> exists y', some y = Ok (Some y') /\ (|value y'| <= 20001)%Q).
  { intros y z Hy Hz. exists y. split; [reflexivity|]. rewrite Hy. change (|inject_Z z|)%Q with (inject_Z (Z.abs z)). change 20001%Q with (inject_Z 20001). rewrite <- Zle_Qle. exact Hz. }
  destruct (d_eq L r (ZERO L)); [apply (V _ 0); [apply int_val; reflexivity|lia]|].
  unfold cPI, PI_2, PI_FRACT_2, PI_3_FRACT_2.
  edestruct close_eq with (x := d_abs L r) as (b1 & ->); [reflexivity|exact Ra|]. destruct b1; [apply (V _ 0); [apply int_val; reflexivity|lia]|].
  edestruct close_eq with (x := d_abs L r) as (b1 & ->); [reflexivity|exact Ra|]. destruct b1; [apply (V _ 0); [apply int_val; reflexivity|lia]|].
  edestruct close_eq with (x := r) as (b1 & ->); [reflexivity|exact Rb|]. destruct b1; [apply (V _ 1); [apply int_val; reflexivity|lia]|].
  edestruct close_eq with (x := r) as (b1 & ->); [reflexivity|exact Rb|]. destruct b1; [apply (V _ (-1)); [apply int_val; reflexivity|lia]|].
  edestruct close_eq with (x := d_abs L r) as (b1 & ->); [reflexivity|exact Ra|]. destruct b1; [apply (V _ (-1)); [apply int_val; reflexivity|lia]|].
  destruct (square_ok r R) as (xx & -> & X). cbn [must]. destruct (sin_series_ok xx r X R) as (s & -> & S). cbn [ModelDecimal.call].
  apply approx_bound in S. exact S.
Qed.
Lemma cos_ok : forall x, exists y, checked_cos L x = Ok (Some y) /\ (|value y| <= 20001)%Q /\ (~ (value y == 0)%Q -> (1 # 10000000000000000 <= |value y|)%Q).
Proof.
  intros x. unfold checked_cos. destruct (angle x) as (r & -> & R). cbn [must].
  assert (Rb : (|value r| <= 10)%Q) by (eapply Qle_trans; [exact R|discriminate]).
  destruct (is_zero L r).
  { exists (ONE L). pose proof (one_val L value EX) as V. split; [reflexivity|]. rewrite V. split; [discriminate|]. intros _. discriminate. }
  unfold PI_FRACT_2. edestruct close_eq with (x := r) as (b1 & ->); [reflexivity|exact Rb|]. destruct b1.
  { exists (ZERO L). pose proof (zero_val L value EX) as V. split; [reflexivity|]. rewrite V. split; [discriminate|]. intros []. reflexivity. }
  destruct (square_ok r R) as (xx & -> & X). cbn [must]. pose proof (two_val L value EX) as V2. pose proof (one_val L value EX) as V1.
  assert (N0 : ~ (value (TWO L) == 0)%Q) by (rewrite V2; discriminate).
  assert (Q0 : (|value (d_neg L xx) / value (TWO L)| <= 20)%Q).
  { rewrite V2, (ed_neg _ _ EX). setoid_replace (- value xx / 2)%Q with (- value xx * (1 # 2))%Q by field. setoid_replace 20%Q with (40 * (1 # 2))%Q by reflexivity. apply abs_mul_le; [rewrite Qabs_opp; exact X|discriminate]. }
  destruct (bounded _ _ _ (ed_div _ _ EX (d_neg L xx) (TWO L) N0) Q0 ltac:(discriminate)) as (f & F1 & F2 & _). unfold d_div. rewrite F1. cbn [must].
  assert (Q1 : (|value (ONE L) + value f| <= 1 + (20 + eps))%Q). { rewrite V1. pose proof (Qabs_triangle 1 (value f)) as T. change (|1|)%Q with 1%Q in T. lra. }
  destruct (bounded _ _ _ (ed_add _ _ EX (ONE L) f) Q1 ltac:(discriminate)) as (g & G1 & G2 & _). unfold d_add. rewrite G1. cbn [must].
  destruct (cos_series_ok xx f g X) as (s & -> & S); [eapply Qle_trans; [exact F2|discriminate]|eapply Qle_trans; [exact G2|discriminate]|]. cbn [ModelDecimal.call].
  apply approx_bound in S. destruct S as (y & Y1 & Y2). exists y. split; [exact Y1|]. split; [exact Y2|]. apply (approx_away s y Y1).
Qed.
Lemma tan_ok : forall x, exists o, checked_tan L x = Ok o.
Proof.
  intros x. unfold checked_tan. destruct (cos_ok x) as (c & -> & _ & C). cbn [ModelDecimal.call]. destruct (is_zero L c) eqn:B; [eexists; reflexivity|].
  assert (N0 : ~ (value c == 0)%Q) by (rewrite <- (is_zero_iff L value EX); congruence). specialize (C N0).
  destruct (sin_ok x) as (s & -> & S). cbn [ModelDecimal.call].
  destruct (computes_some value _ _ (ed_div _ _ EX s c N0)) as (r & R1).
  - unfold Qdiv. apply Qle_trans with (20001 * 10000000000000000)%Q; [|discriminate]. apply abs_mul_le; [exact S|].
    rewrite Qabs_Qinv. setoid_replace (10000000000000000)%Q with (/ (1 # 10000000000000000))%Q by reflexivity. apply Qle_shift_inv_l; [reflexivity|].
    apply Qle_trans with (/ (|value c|) * |value c|)%Q; [rewrite !(Qmult_comm (/ _)); apply Qmult_le_compat_r; [exact C|]; apply Qlt_le_weak, Qinv_lt_0_compat; eapply Qlt_le_trans; [|exact C]; reflexivity|].
    rewrite Qmult_comm, Qmult_inv_r; [apply Qle_refl|]. intros H. rewrite H in C. apply C. reflexivity.
  - unfold d_div. rewrite R1. cbn [must]. destruct (approx_ok r) as (y & -> & _). eexists; reflexivity.
Qed.
End Trig.
