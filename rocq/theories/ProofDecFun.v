(** * Decimal functions that do not panic, continued *)
From Coq Require Import List NArith ZArith QArith Qabs Qround Qpower Bool Lia Lqa String.
From Verif Require Import ModelBase ModelContext ModelText ModelDefault ModelFloat ModelNum ModelOps ModelDecimal
  SpecText SpecExpr SpecOps SpecDecimal ProofText ProofDefault ProofBuild ProofCtx ProofOps3 ProofDecimal ProofDecimal2 ProofDecTrig.
Import ListNotations.
Local Open Scope Z_scope.

Section Fun.
Context {D W : Type}.
Variable L : dlib D.
Variable value : D -> Q.
Hypothesis EX : exact_decimals L value.
Variable fuel : nat.
Notation "| q |" := (Qabs q) (at level 30, q at level 200, format "| q |") : Q_scope.

(** Neither a panic nor an error of its own. *)
Definition quiet (m : @O D) : Prop := exists o, m = Ok o.
Lemma quiet_some : forall x, quiet (some x). Proof. intros x. exists (Some x). reflexivity. Qed.
Lemma quiet_none : quiet none. Proof. exists None. reflexivity. Qed.
Lemma quiet_ask : forall o k, (forall x, o = Some x -> quiet (k x)) -> quiet (ask o k).
Proof. intros [x|] k H; [apply H; reflexivity|apply quiet_none]. Qed.
Lemma quiet_call : forall m k, quiet m -> (forall x, m = Ok (Some x) -> quiet (k x)) -> quiet (ModelDecimal.call m k).
Proof. intros m k [[x|] ->] H; cbn; [apply H; reflexivity|apply quiet_none]. Qed.
Lemma quiet_approx : forall x, quiet (approx L x). Proof. intros x. destruct (approx_ok L value EX x) as (y & -> & _). exists (Some y). reflexivity. Qed.

Lemma powi_loop_quiet : forall e r b, quiet (powi_loop L r b e).
Proof. induction e as [e IH|e IH|]; intros r b; cbn [powi_loop]; repeat (apply quiet_ask; intros ? _); try apply IH; apply quiet_some. Qed.
Lemma powi_quiet : forall x n, 0 <= n -> quiet (checked_powi L x n).
Proof.
  intros x n Hn. unfold checked_powi. destruct (n =? 0); [apply quiet_some|]. destruct (n =? 1); [apply quiet_some|]. destruct (n <? 0) eqn:B; [lia|]. apply powi_loop_quiet.
Qed.
Lemma ln_series_quiet : forall t n x r, 1 <= n -> quiet (ln_series L t n x r).
Proof.
  induction t as [|t IH]; intros n x r Hn; cbn [ln_series]; [apply quiet_some|].
  apply quiet_call; [apply powi_quiet; lia|]. intros s _. apply quiet_ask. intros y _. apply quiet_call; [apply powi_quiet; lia|]. intros z _.
  repeat (apply quiet_ask; intros ? _). apply IH. lia.
Qed.
Lemma ten_val : (value (TEN L) == 10)%Q. Proof. apply (lit_val L value EX). reflexivity. Qed.
Lemma tenth : forall a, (0 < value a)%Q -> exists b, d_div L a (TEN L) = Some b /\ (value b <= value a * (1 # 10) + 1)%Q /\ ((value a <= 3)%Q -> (value b <= 1)%Q).
Proof.
  intros a Ha. assert (N0 : ~ (value (TEN L) == 0)%Q) by (rewrite ten_val; discriminate).
  pose proof (ed_div _ _ EX a (TEN L) N0) as C. assert (E : (value a / value (TEN L) == value a * (1 # 10))%Q) by (rewrite ten_val; field).
  pose proof (rep_bound _ (ed_representable _ _ EX a)) as B. rewrite Qabs_pos in B by lra. 
  assert (A : (|value a / value (TEN L)| == value a * (1 # 10))%Q) by (rewrite E; apply Qabs_pos; lra).
  destruct C as (_ & _ & C). destruct C as (b & B1 & B2). { rewrite A. change (inject_Z (limit - 1)) with (79228162514264337593543950335#1)%Q in *. lra. }
  exists b. split; [exact B1|]. split.
  - specialize (B2 0 ltac:(lia)). change (inject_Z (10 ^ 0)) with 1%Q in B2. rewrite !Qmult_1_r in B2.
    assert (S : (|value a / value (TEN L)| < inject_Z (2 ^ 95))%Q). { rewrite A. change (inject_Z (limit - 1)) with (79228162514264337593543950335#1)%Q in *. change (inject_Z (2 ^ 95)) with (39614081257132168796771975168#1)%Q. lra. }
    specialize (B2 S). rewrite E, (abs_le (_ - _)%Q) in B2. lra.
  - intros H3. specialize (B2 1 ltac:(lia)). change (inject_Z (10 ^ 1)) with 10%Q in B2.
    assert (S : (|value a / value (TEN L)| * 10 < inject_Z (2 ^ 95))%Q). { rewrite A. change (inject_Z (2 ^ 95)) with (39614081257132168796771975168#1)%Q. lra. }
    specialize (B2 S). rewrite E in B2. assert (|value b - value a * (1 # 10)| <= 1 # 10)%Q by lra. rewrite abs_le in H. lra.
Qed.
Lemma ln_reduce_ok : forall k f a n, (k + 2 <= f)%nat -> (value a <= (4 # 5) * inject_Z (10 ^ Z.of_nat k) + 2)%Q ->
  exists b m, ln_reduce L f a n = Ok (Some (b, m)) /\ (value b <= 1)%Q.
Proof.
  pose proof (one_val L value EX) as V1.
  assert (Stop : forall f a n, (value a <= 1)%Q -> ln_reduce L f a n = Ok (Some (a, n))).
  { intros f a n Ha. assert (G : d_gt L a (ONE L) = false) by (apply (d_gt_false L value EX); rewrite V1; exact Ha). destruct f; cbn [ln_reduce]; rewrite G; reflexivity. }
  induction k as [|k IH]; intros f a n Hf Ha; (destruct f as [|f]; [lia|]); cbn [ln_reduce]; (destruct (d_gt L a (ONE L)) eqn:G; [|exists a, n; split; [reflexivity|]; apply (d_gt_false L value EX) in G; rewrite V1 in G; exact G]);
  apply (d_gt_iff L value EX) in G; rewrite V1 in G; destruct (tenth a ltac:(lra)) as (b & -> & B1 & B2).
  - exists b, (n + 1). assert (Hb : (value b <= 1)%Q). { apply B2. change (inject_Z (10 ^ Z.of_nat 0)) with 1%Q in Ha. lra. } split; [apply Stop|]; exact Hb.
  - apply IH; [lia|]. replace (Z.of_nat (S k)) with (Z.of_nat k + 1) in Ha by lia. rewrite Z.pow_add_r in Ha by lia. rewrite inject_Z_mult in Ha. change (inject_Z (10 ^ 1)) with 10%Q in Ha. lra.
Qed.
Lemma ln_quiet : forall x, (40 <= fuel)%nat -> quiet (checked_ln L fuel x).
Proof.
  intros x Hf. pose proof (one_val L value EX) as V1. unfold checked_ln.
  assert (Low : forall d x, (value x <= 1)%Q -> quiet (ln_rec L fuel d x)).
  { intros d y Hy. destruct d; cbn [ln_rec]; (destruct (negb (d_gt L y (ZERO L))); [apply quiet_none|]); (destruct (is_one L y) eqn:B1; [apply quiet_some|]);
    (destruct (negb (d_lt L y (ONE L))) eqn:B2; [|apply quiet_call; [apply ln_series_quiet; lia|]; intros; apply quiet_approx]); exfalso;
    apply negb_true_iff, (d_lt_false L value EX) in B2; rewrite V1 in B2; assert (~ (value y == 1)%Q) by (rewrite <- (is_one_iff L value EX); congruence); lra. }
  assert (G : forall d, (1 <= d)%nat -> quiet (ln_rec L fuel d x)); [|apply G; lia]. intros [|d] Hd; [lia|]. clear Hd. cbn [ln_rec]. destruct (negb (d_gt L x (ZERO L))); [apply quiet_none|]. destruct (is_one L x); [apply quiet_some|].
  destruct (negb (d_lt L x (ONE L))); [|apply quiet_call; [apply ln_series_quiet; lia|]; intros; apply quiet_approx].
  destruct (ln_reduce_ok 29 fuel x 0 ltac:(lia)) as (b & m & -> & Hb).
  { pose proof (rep_bound _ (ed_representable _ _ EX x)) as B. change (inject_Z (limit - 1)) with (79228162514264337593543950335#1)%Q in B. change (inject_Z (10 ^ Z.of_nat 29)) with (100000000000000000000000000000#1)%Q. rewrite abs_le in B. lra. }
  apply quiet_call; [apply Low; exact Hb|]. intros l _. repeat (apply quiet_ask; intros ? _). apply quiet_some.
Qed.
Lemma log_quiet : forall x b, (40 <= fuel)%nat -> quiet (checked_log L fuel x b).
Proof.
  intros x b Hf. unfold checked_log. apply quiet_call; [apply ln_quiet; exact Hf|]. intros l _. destruct (d_eq L b (TEN L)); [apply quiet_ask; intros; apply quiet_some|].
  apply quiet_call; [apply ln_quiet; exact Hf|]. intros m _. apply quiet_ask; intros; apply quiet_some.
Qed.
Lemma exp_loop_quiet : forall t b a r, quiet (exp_loop L t b a r).
Proof. induction t as [|t IH]; intros b a r; cbn [exp_loop]; [apply quiet_some|]. repeat (apply quiet_ask; intros ? _). apply IH. Qed.
Lemma exp_quiet : forall x, quiet (checked_exp L x).
Proof.
  intros x. unfold checked_exp. destruct (is_zero L x); [apply quiet_some|]. destruct (is_one L x); [apply quiet_some|]. apply quiet_ask; intros a _. apply quiet_call; [apply exp_loop_quiet|]. intros r _.
  repeat (apply quiet_ask; intros ? _). apply quiet_approx.
Qed.
Lemma cbrt_quiet : forall x, quiet (checked_cbrt L x).
Proof.
  intros x. unfold checked_cbrt. destruct (is_one L x); [apply quiet_some|]. generalize TAYLOR, (ONE L). induction n as [|t IH]; intros r; cbn [cbrt_loop]; [apply quiet_some|].
  repeat (apply quiet_ask; intros ? _). apply IH.
Qed.
Definition pi_28 : Z := 31415926535897932384626433833.
Lemma pi_val : (value (cPI L) == pi_28 # 10000000000000000000000000000)%Q. Proof. apply (lit28 L value EX). reflexivity. Qed.
Lemma to_radians_quiet : forall x, exists y, to_radians L x = Ok (Some y).
Proof.
  intros x. unfold to_radians. pose proof pi_val as P. assert (V : (value (int L 180) == 180)%Q) by (apply (lit_val L value EX); reflexivity).
  assert (N0 : ~ (value (int L 180) == 0)%Q) by (rewrite V; discriminate).
  destruct (bounded value _ _ (1 # 50) (ed_div _ _ EX (cPI L) (int L 180) N0)) as (c & C1 & C2 & _); [rewrite P, V; discriminate|discriminate|].
  unfold d_div. rewrite C1. cbn [must]. destruct (computes_some value _ _ (ed_mul _ _ EX x c)) as (y & Y).
  - pose proof (rep_bound _ (ed_representable _ _ EX x)) as B. eapply Qle_trans; [apply (abs_mul_le _ _ _ _ B C2)|]. unfold eps. rewrite <- (Qmult_1_r (inject_Z (limit - 1))) at 2.
    rewrite !(Qmult_comm (inject_Z _)). apply Qmult_le_compat_r; discriminate.
  - unfold d_mul. rewrite Y. cbn [must]. destruct (approx_ok L value EX y) as (z & -> & _). eexists. reflexivity.
Qed.

(** ** Arc tangent *)
Lemma atan_loop_ok : forall t i x r, (|value x| <= 1)%Q -> Z.of_nat t <= i - 1 -> i <= 100 -> (9 # 10 <= value r)%Q -> (value r <= 30000)%Q ->
  exists y, atan_loop L t i x r = Ok (Some y) /\ (9 # 10 <= value y)%Q.
Proof.
  induction t as [|t IH]; intros i x r Hx Ht Hi Hr1 Hr2; cbn [atan_loop]; [exists r; split; [reflexivity|exact Hr1]|]. unfold d_mul, d_div, d_add, d_sub.
  assert (lv : forall z, Z.abs z <= 1000000 -> (value (int L z) == inject_Z z)%Q) by (intros z Hz; apply (lit_val L value EX); rewrite limit_val; lia).
  assert (E0 : (0 < eps)%Q) by reflexivity. assert (E1 : (eps <= 1 # 100)%Q) by discriminate.
  assert (I1 : (inject_Z (i - 1) <= 99)%Q) by (change 99%Q with (inject_Z 99); rewrite <- Zle_Qle; lia).
  assert (I0 : (0 <= inject_Z (i - 1))%Q) by (change 0%Q with (inject_Z 0); rewrite <- Zle_Qle; lia).
  assert (Z0 : (|value x * value (int L (i - 1))| <= 1 * 99)%Q). { apply abs_mul_le; [exact Hx|]. rewrite lv by lia. rewrite Qabs_pos; assumption. }
  destruct (bounded value _ _ _ (ed_mul _ _ EX x (int L (i - 1))) Z0 ltac:(discriminate)) as (z & -> & Z2 & _). cbn [must].
  assert (S0 : (|value z * value z| <= 100 * 100)%Q) by (apply abs_mul_le; lra).
  destruct (bounded value _ _ _ (ed_mul _ _ EX z z) S0 ltac:(discriminate)) as (z2 & -> & S1 & S2). cbn [must].
  assert (S3 : (- eps <= value z2)%Q). { rewrite abs_le in S2. assert (0 <= value z * value z)%Q by (destruct (Qlt_le_dec (value z) 0); nra). lra. }
  assert (Rn : ~ (value r == 0)%Q) by lra. assert (Rp : (0 < value r)%Q) by lra.
  assert (Ri : (0 < / value r)%Q) by (apply Qinv_lt_0_compat; exact Rp).
  assert (Ri2 : (/ value r <= 2)%Q). { setoid_replace 2%Q with (/ (1 # 2))%Q by reflexivity. apply Qle_shift_inv_l; [reflexivity|]. apply Qle_trans with (/ value r * value r)%Q; [nra|]. rewrite Qmult_comm, Qmult_inv_r; [apply Qle_refl|exact Rn]. }
  assert (Q0 : (|value z2 / value r| <= 10001 * 2)%Q). { unfold Qdiv. apply abs_mul_le; [lra|]. rewrite Qabs_pos; lra. }
  destruct (bounded value _ _ _ (ed_div _ _ EX z2 r Rn) Q0 ltac:(discriminate)) as (q & -> & Q1 & Q2). cbn [must].
  assert (Q3 : (- (1 # 20) <= value q)%Q). { rewrite abs_le in Q2. unfold Qdiv in Q2. assert (- (1 # 25) <= value z2 * / value r)%Q by nra. lra. }
  assert (lz : (value (TWO L) == 2)%Q) by apply (two_val L value EX).
  destruct (computes_exact value _ _ (ed_mul _ _ EX (TWO L) (int L i))) as (n2 & -> & N2).
  { apply (rep_comp (inject_Z (2 * i))); [rewrite lz, lv by lia; rewrite inject_Z_mult; reflexivity|]. apply int_rep. rewrite limit_val. lia. } cbn [must].
  assert (lt : (value (THREE L) == 3)%Q) by (apply (lit_val L value EX); reflexivity).
  assert (C0 : (value n2 - value (THREE L) == inject_Z (2 * i - 3))%Q). { rewrite N2, lz, lt, lv by lia. unfold Z.sub. rewrite inject_Z_plus, inject_Z_mult. reflexivity. }
  destruct (computes_exact value _ _ (ed_sub _ _ EX n2 (THREE L))) as (c & -> & C1).
  { apply (rep_comp (inject_Z (2 * i - 3))); [symmetry; exact C0|]. apply int_rep. rewrite limit_val. lia. } cbn [must]. rewrite C0 in C1.
  assert (C2 : (1 <= value c)%Q) by (rewrite C1; change 1%Q with (inject_Z 1); rewrite <- Zle_Qle; lia).
  assert (C3 : (value c <= 200)%Q) by (rewrite C1; change 200%Q with (inject_Z 200); rewrite <- Zle_Qle; lia).
  assert (A0 : (|value q + value c| <= 30000 - 1)%Q) by (rewrite abs_le in *; lra).
  destruct (bounded value _ _ _ (ed_add _ _ EX q c) A0 ltac:(discriminate)) as (r' & -> & A1 & A2). cbn [must].
  apply IH; [exact Hx|lia|lia| |]; rewrite abs_le in *; lra.
Qed.
Lemma granular : forall x, (1 < value x)%Q -> (1 + (1 # 10000000000000000000000000000) <= value x)%Q.
Proof.
  intros x Hx. destruct (ed_representable _ _ EX x) as (c & s & Hs & _ & E). assert (T : 1 <= 10 ^ s <= 10 ^ 28). { split; [pose proof (Z.pow_pos_nonneg 10 s); lia|apply Z.pow_le_mono_r; lia]. }
  assert (T0 : (0 < inject_Z (10 ^ s))%Q) by (change 0%Q with (inject_Z 0); rewrite <- Zlt_Qlt; lia).
  assert (T1 : (inject_Z (10 ^ s) <= 10000000000000000000000000000)%Q) by (change 10000000000000000000000000000%Q with (inject_Z (10 ^ 28)); rewrite <- Zle_Qle; lia).
  assert (C : (inject_Z (10 ^ s) < inject_Z c)%Q) by nra. rewrite <- Zlt_Qlt in C. assert (C1 : (inject_Z (10 ^ s) + 1 <= inject_Z c)%Q). { change 1%Q with (inject_Z 1). rewrite <- inject_Z_plus, <- Zle_Qle. lia. }
  assert (X : (value x == inject_Z c / inject_Z (10 ^ s))%Q) by (rewrite <- E; field; lra). rewrite X. apply Qle_shift_div_l; [exact T0|]. lra.
Qed.
Lemma granular_le : forall x, (value x < 1 + (1 # 10000000000000000000000000000))%Q -> (value x <= 1)%Q.
Proof. intros x H. destruct (Qlt_le_dec 1 (value x)) as [A|A]; [|exact A]. apply granular in A. lra. Qed.
(** The reciprocal of a number beyond 1 is not beyond 1. *)
Lemma recip_le : forall x, (1 < |value x|)%Q -> exists i, d_div L (ONE L) x = Some i /\ (|value i| <= 1)%Q.
Proof.
  intros x Hx. assert (Xn : ~ (value x == 0)%Q) by (intros H; rewrite H in Hx; discriminate Hx). pose proof (one_val L value EX) as V1.
  pose proof (ed_div _ _ EX (ONE L) x Xn) as C.
  assert (G : (1 + (1 # 10000000000000000000000000000) <= |value x|)%Q). { rewrite <- (ed_abs _ _ EX) in *. apply granular. exact Hx. }
  assert (A : (|value (ONE L) / value x| == / |value x|)%Q). { rewrite V1. unfold Qdiv. rewrite Qmult_1_l. apply Qabs_Qinv. }
  assert (P : (0 < |value x|)%Q) by lra. pose proof (Qinv_lt_0_compat _ P) as P1. assert (P2 : (/ |value x| * |value x| == 1)%Q) by (rewrite Qmult_comm; apply Qmult_inv_r; lra).
  assert (A1 : (/ |value x| < 1)%Q) by nra. destruct C as (_ & _ & C). destruct C as (i & I1 & I2). { rewrite A. change (inject_Z (limit - 1)) with (79228162514264337593543950335#1)%Q. lra. }
  exists i. split; [exact I1|]. specialize (I2 28 ltac:(lia)). change (inject_Z (10 ^ 28)) with 10000000000000000000000000000%Q in I2. change (inject_Z (2 ^ 95)) with (39614081257132168796771975168#1)%Q in I2.
  rewrite A in I2. specialize (I2 ltac:(lra)). assert (A2 : (/ |value x| < 1)%Q) by exact A1.
  rewrite <- (ed_abs _ _ EX). apply granular_le. rewrite (ed_abs _ _ EX).
  pose proof (Qabs_triangle (value i - value (ONE L) / value x) (value (ONE L) / value x)) as T. setoid_replace (value i - value (ONE L) / value x + value (ONE L) / value x)%Q with (value i) in T by ring. rewrite A in T. lra.
Qed.
Lemma neg_const : forall c, Z.abs c < limit -> (value (d_neg L (d_lit L c 28)) == (- c) # 10000000000000000000000000000)%Q.
Proof. intros c Hc. rewrite (ed_neg _ _ EX), (lit28 L value EX c Hc). reflexivity. Qed.
Lemma atan_low : forall d x, (|value x| <= 1)%Q -> exists y, atan_rec L d x = Ok (Some y) /\ (|value y| <= 3)%Q.
Proof.
  intros d x Hx. pose proof (one_val L value EX) as V1. pose proof (zero_val L value EX) as V0.
  assert (lm : (value (ONE_MINUS L) == -1)%Q) by (apply (lit_val L value EX); reflexivity).
  assert (B : d_lt L x (ONE_MINUS L) = false /\ d_gt L x (ONE L) = false).
  { rewrite abs_le in Hx. split; [apply (d_lt_false L value EX); rewrite lm|apply (d_gt_false L value EX); rewrite V1]; lra. }
  destruct B as [B1 B2].
  assert (E0 : (0 < eps)%Q) by reflexivity. assert (E1 : (eps <= 1 # 100)%Q) by discriminate.
  assert (G : exists y, must (d_mul L (TWO L) (int L 100)) (fun t => must (d_sub L t (ONE L)) (fun r0 => ModelDecimal.call (atan_loop L 99 100 x r0) (fun r1 => must (d_div L x r1) (fun r2 => approx L r2)))) = Ok (Some y) /\ (|value y| <= 3)%Q).
  { unfold d_mul, d_div, d_add, d_sub. assert (lh : (value (int L 100) == 100)%Q) by (apply (lit_val L value EX); reflexivity). pose proof (two_val L value EX) as V2.
    destruct (computes_exact value _ _ (ed_mul _ _ EX (TWO L) (int L 100))) as (t & -> & T); [apply (rep_comp (inject_Z 200)); [rewrite V2, lh; reflexivity|apply int_rep; reflexivity]|]. cbn [must].
    destruct (computes_exact value _ _ (ed_sub _ _ EX t (ONE L))) as (r0 & -> & R0); [apply (rep_comp (inject_Z 199)); [rewrite T, V2, lh, V1; reflexivity|apply int_rep; reflexivity]|]. cbn [must].
    assert (R199 : (value r0 == 199)%Q) by (rewrite R0, T, V2, lh, V1; reflexivity).
    destruct (atan_loop_ok 99 100 x r0 Hx ltac:(lia) ltac:(lia)) as (r1 & -> & R1); [rewrite R199; discriminate|rewrite R199; discriminate|]. cbn [ModelDecimal.call].
    assert (Rn : ~ (value r1 == 0)%Q) by lra. pose proof (Qinv_lt_0_compat (value r1) ltac:(lra)) as P1. assert (P2 : (/ value r1 * value r1 == 1)%Q) by (rewrite Qmult_comm; apply Qmult_inv_r; lra).
    assert (Q0 : (|value x / value r1| <= 1 * (10 # 9))%Q). { unfold Qdiv. apply abs_mul_le; [exact Hx|]. rewrite Qabs_pos by lra. nra. }
    destruct (bounded value _ _ _ (ed_div _ _ EX x r1 Rn) Q0 ltac:(discriminate)) as (r2 & -> & Q1 & _). cbn [must]. apply (approx_bound L value EX) in Q1. destruct Q1 as (y & Y1 & Y2). exists y. split; [exact Y1|]. lra. }
  assert (P4 : (value (PI_FRACT_4 L) == 7853981633974483096156608458 # 10000000000000000000000000000)%Q) by (apply (lit28 L value EX); reflexivity).
  destruct d; cbn [atan_rec]; rewrite B1, B2; (destruct (is_zero L x); [exists (ZERO L); split; [reflexivity|rewrite V0; discriminate]|]); (destruct (is_one L x); [exists (PI_FRACT_4 L); split; [reflexivity|rewrite P4; discriminate]|]);
  (destruct (d_eq L x (ONE_MINUS L)); [exists (d_neg L (PI_FRACT_4 L)); split; [reflexivity|rewrite (ed_neg _ _ EX), P4; discriminate]|]); exact G.
Qed.
Lemma atan_ok : forall x, (1 <= fuel)%nat -> exists y, atan L fuel x = Ok (Some y) /\ (|value y| <= 5)%Q.
Proof.
  intros x Hf. unfold atan. destruct (Qlt_le_dec 1 (|value x|)) as [H|H]; [|destruct (atan_low fuel x H) as (y & Y1 & Y2); exists y; split; [exact Y1|lra]].
  assert (E0 : (0 < eps)%Q) by reflexivity. assert (E1 : (eps <= 1 # 100)%Q) by discriminate.
  destruct (recip_le x H) as (i & I1 & I2). destruct fuel as [|d]; [lia|]. cbn [atan_rec]. destruct (atan_low d i I2) as (a & A0 & A).
  pose proof (one_val L value EX) as V1. pose proof (zero_val L value EX) as V0. assert (lm : (value (ONE_MINUS L) == -1)%Q) by (apply (lit_val L value EX); reflexivity).
  assert (P2 : (value (PI_FRACT_2 L) == 15707963267948966192313216916 # 10000000000000000000000000000)%Q) by (apply (lit28 L value EX); reflexivity).
  destruct (is_zero L x) eqn:Z0; [apply (is_zero_iff L value EX) in Z0; rewrite Z0 in H; discriminate H|]. destruct (is_one L x) eqn:Z1; [apply (is_one_iff L value EX) in Z1; rewrite Z1 in H; discriminate H|].
  destruct (d_eq L x (ONE_MINUS L)) eqn:Z2; [apply (d_eq_iff L value EX) in Z2; rewrite lm in Z2; rewrite Z2 in H; discriminate H|]. rewrite I1. cbn [must]. rewrite A0. cbn [ModelDecimal.call]. unfold d_sub.
  destruct (d_lt L x (ONE_MINUS L)) eqn:G1; [|destruct (d_gt L x (ONE L)) eqn:G2].
  - assert (Q0 : (|value (d_neg L (PI_FRACT_2 L)) - value a| <= 2 + 3 - (1 # 100))%Q). { rewrite (ed_neg _ _ EX), P2. rewrite abs_le in *. lra. }
    destruct (bounded value _ _ _ (ed_sub _ _ EX (d_neg L (PI_FRACT_2 L)) a) Q0 ltac:(discriminate)) as (r & -> & R & _). exists r. split; [reflexivity|]. lra.
  - assert (Q0 : (|value (PI_FRACT_2 L) - value a| <= 2 + 3 - (1 # 100))%Q). { rewrite P2. rewrite abs_le in *. lra. }
    destruct (bounded value _ _ _ (ed_sub _ _ EX (PI_FRACT_2 L) a) Q0 ltac:(discriminate)) as (r & -> & R & _). exists r. split; [reflexivity|]. lra.
  - exfalso. apply (d_lt_false L value EX) in G1. apply (d_gt_false L value EX) in G2. rewrite lm in G1. rewrite V1 in G2. assert (|value x| <= 1)%Q by (apply abs_le; lra). lra.
Qed.

(** ** The functions *)
Lemma fine_over_quiet : forall m, quiet m -> fine (or_over m).
Proof. intros m [[x|] ->]; split; discriminate. Qed.
Lemma calm_fwd : forall name m, (forall x, quiet (m x)) -> calm (fun k => (k =? 1)%nat) (@fwd_checked D W name m).
Proof. intros name m H. apply calm_one. intros x. apply fine_over_quiet, H. Qed.
Lemma calm_trig_checked : forall name m, (forall x, quiet (m x)) -> calm (fun k => (k =? 1)%nat) (@trig_checked D W L name m).
Proof. intros name m H. apply calm_one. intros x. apply fine_over_quiet. destruct (to_radians_quiet x) as (y & ->). apply H. Qed.
Lemma calm_plain : forall name m, calm (fun k => (k =? 1)%nat) (@fwd D W name m).
Proof. intros name m. apply calm_one. intros x. split; discriminate. Qed.
Lemma calm_log : (40 <= fuel)%nat -> calm (fun k => (k =? 1)%nat || (k =? 2)%nat) (@x_log D W L fuel).
Proof.
  intros Hf args w. unfold x_log, fun_, lift. cbn [fn_call fst]. destruct args as [|x [|y [|z args]]]; cbn [List.length Nat.eqb orb]; try (split; [discriminate|split; reflexivity]).
  - destruct (fine_over_quiet _ (log_quiet x (TEN L) Hf)). split; [assumption|]. split; [contradiction|discriminate].
  - destruct (fine_over_quiet _ (log_quiet x y Hf)). split; [assumption|]. split; [contradiction|discriminate].
Qed.
Lemma sin_quiet : forall x, quiet (checked_sin L x). Proof. intros x. destruct (sin_ok L value EX x) as (y & -> & _). apply quiet_some. Qed.
Lemma cos_quiet : forall x, quiet (checked_cos L x). Proof. intros x. destruct (cos_ok L value EX x) as (y & -> & _). apply quiet_some. Qed.
Lemma tan_quiet : forall x, quiet (checked_tan L x). Proof. intros x. apply (tan_ok L value EX x). Qed.
Lemma atan_quiet : forall x, (1 <= fuel)%nat -> quiet (atan L fuel x). Proof. intros x Hf. destruct (atan_ok x Hf) as (y & -> & _). apply quiet_some. Qed.
End Fun.
