(** * Decimal powers, factorials, aggregates, expressions *)
From Coq Require Import List NArith ZArith QArith Qabs Qround Qpower Bool Lia Lqa String.
From Verif Require Import ModelBase ModelContext ModelText ModelDefault ModelFloat ModelNum ModelOps ModelDecimal
  SpecText SpecExpr SpecOps SpecDecimal ProofText ProofDefault ProofBuild ProofCtx ProofDecimal.
Import ListNotations.
Local Open Scope Z_scope.

Section Dec.
Context {D : Type}.
Variable L : dlib D.
Variable value : D -> Q.
Hypothesis EX : exact_decimals L value.
Variable fuel : nat.

Lemma outcome_of : forall q r, computes value q r -> decimal_outcome value q (or_over (opt r)).
Proof.
  intros q r (A & B & C). split; [|split; [|split]].
  - intros R. destruct (A R) as (z & -> & Z). exists z. auto.
  - intros R. rewrite (B R). reflexivity.
  - intros R. destruct (C R) as (z & -> & Z). exists z. auto.
  - destruct r; discriminate.
Qed.

(** ** Powers *)
Definition pow_of (x e : D) : res D := or_over (checked_powd L fuel x e).
Lemma pow_integer : forall x e n, (value e == inject_Z n)%Q -> checked_powd L fuel x e = if (- 2 ^ 63 <=? n) && (n <? 2 ^ 63) then checked_powi L x n else Panic.
Proof.
  intros x e n He. unfold checked_powd. rewrite (proj2 (is_integer_iff L value EX e)) by (exists n; exact He). rewrite (ed_i64 _ _ EX e n He).
  destruct ((_ <=? _) && _); reflexivity.
Qed.
Lemma powi_pos : forall x n, 2 <= n -> checked_powi L x n = powi_loop L (ONE L) x (Z.to_pos n).
Proof. intros x n Hn. unfold checked_powi. destruct (n =? 0) eqn:A; [lia|]. destruct (n =? 1) eqn:B; [lia|]. destruct (n <? 0) eqn:C; [lia|]. reflexivity. Qed.
Lemma i64_range : forall n, - 2 ^ 63 <= n < 2 ^ 63 -> ((- 2 ^ 63 <=? n) && (n <? 2 ^ 63)) = true. Proof. intros. lia. Qed.
Lemma pow_exact : forall x e n, (value e == inject_Z n)%Q -> 2 <= n < 2 ^ 63 -> (forall j, 0 <= j <= 2 ^ (Z.log2 n + 1) -> representable (value x ^ j)%Q) ->
  exists y, pow_of x e = Ok y /\ (value y == value x ^ n)%Q.
Proof.
  intros x e n He Hn HR. unfold pow_of. rewrite (pow_integer x e n He), i64_range by lia. rewrite powi_pos by lia.
  destruct (powi_loop_exact L value EX x n (value x) ltac:(lia) ltac:(reflexivity) HR) as (y & -> & Y). exists y. split; [reflexivity|exact Y].
Qed.
Lemma pow_int : forall x e z n, (value x == inject_Z z)%Q -> (value e == inject_Z n)%Q -> 2 <= n < 2 ^ 63 ->
  (Z.abs z ^ (2 ^ (Z.log2 n + 1)) < limit -> exists y, pow_of x e = Ok y /\ (value y == inject_Z (z ^ n))%Q) /\
  (limit <= Z.abs z ^ (2 ^ (Z.log2 n + 1)) -> pow_of x e = Err Overflow).
Proof.
  intros x e z n Hx He Hn. set (t := 2 ^ (Z.log2 n + 1)). assert (Ht : 0 <= t) by (apply Z.pow_nonneg; lia). rewrite <- Z.abs_pow. split; intros H.
  - destruct (pow_exact x e n He Hn) as (y & Y1 & Y2).
    + fold t. intros j Hj. apply (rep_comp (inject_Z z ^ j)); [rewrite Hx; reflexivity|]. eapply int_powers; [exact Ht|exact H|exact Hj].
    + exists y. split; [exact Y1|]. rewrite Y2, Hx. symmetry. apply inject_pow. lia.
  - unfold pow_of. rewrite (pow_integer x e n He), i64_range by lia. rewrite powi_pos by lia.
    rewrite (powi_loop_over L value EX x n z) by (try assumption; lia). reflexivity.
Qed.
Lemma pow_0_1 : forall x e n, (value e == inject_Z n)%Q -> (n = 0 -> pow_of x e = Ok (ONE L)) /\ (n = 1 -> pow_of x e = Ok x).
Proof. intros x e n He. unfold pow_of. rewrite (pow_integer x e n He). split; intros ->; reflexivity. Qed.
Lemma pow_outside : forall x e n, (value e == inject_Z n)%Q -> ~ (- 2 ^ 63 < n < 2 ^ 63) -> pow_of x e = Panic.
Proof.
  intros x e n He Hn. unfold pow_of. rewrite (pow_integer x e n He). destruct (Z.eq_dec n (- 2 ^ 63)) as [->|Ne].
  - rewrite i64_range by lia. unfold checked_powi. cbn - [d_div].
    destruct (d_div L (ONE L) x); reflexivity.
  - destruct ((- 2 ^ 63 <=? n) && (n <? 2 ^ 63)) eqn:B; [lia|reflexivity].
Qed.
Lemma pow_neg : forall x e n, (value e == inject_Z (- n))%Q -> 1 <= n < 2 ^ 63 -> ~ (value x == 0)%Q ->
  (forall j, 0 <= j <= 2 ^ (Z.log2 n + 1) -> representable ((1 / value x) ^ j)%Q) ->
  exists y, pow_of x e = Ok y /\ (value y == value x ^ (- n))%Q.
Proof.
  intros x e n He Hn Hx HR. unfold pow_of. rewrite (pow_integer x e _ He), i64_range by lia. unfold checked_powi.
  destruct (- n =? 0) eqn:A; [lia|]. destruct (- n =? 1) eqn:B; [lia|]. destruct (- n <? 0) eqn:C; [|lia]. rewrite Z.opp_involutive.
  assert (T : 2 <= 2 ^ (Z.log2 n + 1)). { pose proof (Z.log2_nonneg n). change 2 with (2 ^ 1) at 1. apply Z.pow_le_mono_r; lia. }
  destruct (div_exact L value EX (ONE L) x 1) as (y & -> & Y); [apply (one_val L value EX)|exact Hx|apply (rep_comp ((1 / value x) ^ 1)); [simpl; reflexivity|apply HR; lia]|].
  cbn [must]. change (imin i64) with (- 2 ^ 63). destruct (- n =? - 2 ^ 63) eqn:M; [lia|].
  assert (I : forall m, 0 <= m -> ((1 / value x) ^ m == value x ^ (- m))%Q).
  { intros m Hm. rewrite Qpower_opp. unfold Qdiv. rewrite Qmult_power, Qinv_power. rewrite Qpower_1. ring. }
  destruct (n =? 1) eqn:N1.
  - assert (n = 1) by lia. subst n. exists y. split; [reflexivity|]. rewrite Y, <- I by lia. reflexivity.
  - destruct (powi_loop_exact L value EX y n (1 / value x) ltac:(lia) Y HR) as (r & -> & R). exists r. split; [reflexivity|]. rewrite R. apply I. lia.
Qed.
Lemma pow_neg_zero : forall x e n, (value e == inject_Z (- n))%Q -> 1 <= n -> (value x == 0)%Q -> pow_of x e = Panic.
Proof.
  intros x e n He Hn Hx. unfold pow_of. rewrite (pow_integer x e _ He). destruct ((- 2 ^ 63 <=? - n) && (- n <? 2 ^ 63)) eqn:B; [|reflexivity].
  unfold checked_powi. destruct (- n =? 0) eqn:A; [lia|]. destruct (- n =? 1) eqn:B1; [lia|]. destruct (- n <? 0) eqn:C; [|lia].
  unfold d_div. rewrite (ed_div_zero _ _ EX _ _ Hx). reflexivity.
Qed.
Lemma pow_fraction : forall x e, (forall z, ~ (value e == inject_Z z)%Q) ->
  ((value x == 0)%Q -> pow_of x e = Ok (ONE L)) /\ ((value x == 1)%Q -> pow_of x e = Ok x) /\ ((value x < 0)%Q -> pow_of x e = Err Overflow).
Proof.
  intros x e Hn. unfold pow_of, checked_powd. assert (I : is_integer L e = false).
  { rewrite <- not_true_iff_false, (is_integer_iff L value EX). intros [z Hz]. exact (Hn z Hz). }
  rewrite I. split; [|split]; intros Hx.
  - rewrite (proj2 (is_zero_iff L value EX x) Hx). reflexivity.
  - assert (Z0 : is_zero L x = false). { rewrite <- not_true_iff_false, (is_zero_iff L value EX). intros X. rewrite Hx in X. discriminate. }
    rewrite Z0, (proj2 (is_one_iff L value EX x) Hx). reflexivity.
  - assert (Z0 : is_zero L x = false) by (rewrite <- not_true_iff_false, (is_zero_iff L value EX); lra).
    assert (Z1 : is_one L x = false) by (rewrite <- not_true_iff_false, (is_one_iff L value EX); lra).
    assert (Z2 : d_eq L x (cE L) = false).
    { rewrite (d_eq_false L value EX). intros X. pose proof (ed_literal _ _ EX 27182818284590452353602874714 28%N ltac:(reflexivity) ltac:(lia)) as Y. fold (cE L) in Y. rewrite <- X in Y.
      assert ((0 < inject_Z 27182818284590452353602874714)%Q) by reflexivity. assert ((0 <= inject_Z (10 ^ Z.of_N 28))%Q) by discriminate. nra. }
    rewrite Z0, Z1, Z2. unfold checked_ln. destruct fuel as [|k]; cbn [ln_rec];
    (assert (G : d_gt L x (ZERO L) = false) by (rewrite (d_gt_false L value EX), (zero_val L value EX); lra)); rewrite G; reflexivity.
Qed.

(** ** Factorials *)
Definition fact_of (x : D) : res D := or_over (checked_factorial L fuel x).
(** [k (k-1) ... (k-j+1)] *)
Fixpoint falling (k : Z) (j : nat) : Z := match j with 0%nat => 1 | S j' => k * falling (k - 1) j' end.
Lemma falling_pos : forall j k, Z.of_nat j <= k -> 0 < falling k j.
Proof. induction j as [|j IH]; intros k Hk; cbn [falling]; [lia|]. assert (0 < falling (k - 1) j) by (apply IH; lia). nia. Qed.
Lemma falling_mono : forall j k k', Z.of_nat j <= k -> k <= k' -> falling k j <= falling k' j.
Proof.
  induction j as [|j IH]; intros k k' Hk Hkk; cbn [falling]; [lia|]. assert (0 < falling (k - 1) j) by (apply falling_pos; lia).
  assert (falling (k - 1) j <= falling (k' - 1) j) by (apply IH; lia). nia.
Qed.
Lemma falling_fact : forall n, falling (Z.of_nat n) n = fact n.
Proof. induction n as [|n IH]; [reflexivity|]. cbn [falling fact]. replace (Z.of_nat (S n) - 1) with (Z.of_nat n) by lia. rewrite IH. reflexivity. Qed.
Lemma sub_one : forall n k, (value n == inject_Z k)%Q -> 0 <= k < limit -> exists m, d_sub L n (ONE L) = Some m /\ (value m == inject_Z (k - 1))%Q.
Proof.
  intros n k Hn Hk. destruct (computes_int value _ _ (k - 1) (ed_sub _ _ EX n (ONE L))) as [(_ & m & M1 & M2)|(F & _)].
  - rewrite Hn, (one_val L value EX). replace (k - 1) with (k + -1) by lia. rewrite inject_Z_plus. reflexivity.
  - exists m. auto.
  - rewrite limit_val in *. lia.
Qed.
Lemma fact_loop_exact : forall k f R r n, (k <= f)%nat -> 0 < R -> (value r == inject_Z R)%Q -> (value n == inject_Z (Z.of_nat k))%Q -> Z.of_nat k < limit ->
  R * falling (Z.of_nat k) k < limit ->
  exists y z, fact_loop L f r n = Ok (Some (y, z)) /\ (value y == inject_Z (R * falling (Z.of_nat k) k))%Q /\ (value z == 0)%Q.
Proof.
  induction k as [|k IH]; intros f R r n Hf HR Hr Hn Hl Hlim.
  - exists r, n. assert (G : d_gt L n (ZERO L) = false) by (rewrite (d_gt_false L value EX), Hn, (zero_val L value EX); discriminate).
    destruct f; cbn [fact_loop]; rewrite G; (split; [reflexivity|]); cbn [falling]; rewrite Z.mul_1_r; split; [exact Hr|exact Hn|exact Hr|exact Hn].
  - destruct f as [|f]; [lia|]. cbn [fact_loop]. assert (G : d_gt L n (ZERO L) = true).
    { rewrite (d_gt_iff L value EX), Hn, (zero_val L value EX). change 0%Q with (inject_Z 0). rewrite <- Zlt_Qlt. lia. }
    rewrite G. cbn [falling] in Hlim. replace (Z.of_nat (S k) - 1) with (Z.of_nat k) in * by lia. pose proof (falling_pos k (Z.of_nat k) ltac:(lia)).
    destruct (mul_int L value EX _ _ _ _ Hr Hn) as [(_ & r' & -> & R2)|(F & _)].
    + destruct (sub_one n _ Hn ltac:(lia)) as (m & -> & M). replace (Z.of_nat (S k) - 1) with (Z.of_nat k) in M by lia.
      destruct (IH f (R * Z.of_nat (S k)) r' m) as (y & z & A1 & A2 & A3); [lia|nia|exact R2|exact M|lia|nia|].
      exists y, z. split; [exact A1|]. split; [|exact A3]. cbn [falling]. replace (Z.of_nat (S k) - 1) with (Z.of_nat k) by lia. rewrite A2, Z.mul_assoc. reflexivity.
    + exfalso. assert (R * Z.of_nat (S k) < limit) by nia. lia.
Qed.
Lemma fact_loop_over : forall j f k R r n, (j <= f)%nat -> Z.of_nat j <= k -> 0 < R -> (value r == inject_Z R)%Q -> (value n == inject_Z k)%Q -> k < limit ->
  R < limit -> limit <= R * falling k j -> fact_loop L f r n = Ok None.
Proof.
  induction j as [|j IH]; intros f k R r n Hf Hk HR Hr Hn Hl HRl Hlim; cbn [falling] in Hlim; [lia|].
  destruct f as [|f]; [lia|]. cbn [fact_loop]. assert (G : d_gt L n (ZERO L) = true).
  { rewrite (d_gt_iff L value EX), Hn, (zero_val L value EX). change 0%Q with (inject_Z 0). rewrite <- Zlt_Qlt. lia. }
  rewrite G. destruct (mul_int L value EX _ _ _ _ Hr Hn) as [(F & r' & -> & R2)|(F & ->)]; [|reflexivity].
  destruct (sub_one n _ Hn ltac:(lia)) as (m & -> & M). apply (IH f (k - 1) (R * k) r' m); [lia|lia|nia|exact R2|exact M|lia|lia|lia].
Qed.
Lemma value_bound : forall x z, (value x == inject_Z z)%Q -> Z.abs z < limit.
Proof.
  intros x z Hx. pose proof (rep_bound _ (ed_representable _ _ EX x)) as B. rewrite Hx in B. change (Qabs (inject_Z z)) with (inject_Z (Z.abs z)) in B. rewrite <- Zle_Qle in B. lia.
Qed.
Lemma fact_27 : fact 27 < limit. Proof. vm_compute. reflexivity. Qed.
Lemma fact_28 : limit <= fact 28. Proof. vm_compute. discriminate. Qed.
Lemma fact_mono : forall n m, (n <= m)%nat -> fact n <= fact m.
Proof. intros n m H. induction H as [|m H IH]; [lia|]. cbn [fact]. assert (0 < fact m). { clear. induction m; cbn [fact]; [lia|nia]. } nia. Qed.
Lemma eq_int : forall x z k, (value x == inject_Z z)%Q -> Z.abs k < limit -> d_eq L x (int L k) = (z =? k).
Proof.
  intros x z k Hx Hk. apply eq_true_iff_eq. rewrite (d_eq_iff L value EX), Hx. unfold int. rewrite (lit_val L value EX k Hk), Z.eqb_eq. apply inject_Z_injective.
Qed.
Lemma round_dp_int : forall x z, (value x == inject_Z z)%Q -> (value (d_round_dp L 15 x) == inject_Z z)%Q.
Proof. intros x z Hx. rewrite (ed_round_dp _ _ EX 15%N x (z * 10 ^ 15)); [exact Hx|]. rewrite Hx, inject_Z_mult. reflexivity. Qed.
Lemma fact_neg : forall x, (value x < 0)%Q -> fact_of x = Err Overflow.
Proof. intros x Hx. unfold fact_of, checked_factorial. rewrite (ed_negative _ _ EX x Hx). reflexivity. Qed.
Lemma fact_zero : forall s, (s <= 28)%N -> fact_of (d_lit L 0 s) = Ok (ONE L).
Proof.
  intros s Hs. unfold fact_of, checked_factorial. rewrite (ed_zero_positive _ _ EX s).
  assert (V : (value (d_lit L 0 s) == inject_Z 0)%Q).
  { pose proof (ed_literal _ _ EX 0 s ltac:(reflexivity) Hs) as X. assert (P : (0 < inject_Z (10 ^ Z.of_N s))%Q). { change 0%Q with (inject_Z 0). rewrite <- Zlt_Qlt. apply Z.pow_pos_nonneg; lia. }
    change (inject_Z 0) with 0%Q in *. apply Qmult_integral in X. destruct X as [X|X]; [exact X|lra]. }
  unfold ZERO, TWO, ONE. rewrite (eq_int _ _ 2 V), (eq_int _ _ 1 V), (eq_int _ _ 0 V) by reflexivity. reflexivity.
Qed.
Lemma fact_one_two : forall x, (value x == 1)%Q \/ (value x == 2)%Q -> fact_of x = Ok (ONE L).
Proof.
  intros x Hx. unfold fact_of, checked_factorial. rewrite (ed_positive _ _ EX x) by (destruct Hx as [-> | ->]; reflexivity).
  assert (V : d_eq L x (TWO L) || d_eq L x (ONE L) || d_eq L x (ZERO L) = true).
  { unfold TWO, ONE, ZERO. destruct Hx as [Hx|Hx]; [change 1%Q with (inject_Z 1) in Hx|change 2%Q with (inject_Z 2) in Hx]; rewrite !(eq_int _ _ _ Hx) by reflexivity; reflexivity. }
  rewrite V. reflexivity.
Qed.
Lemma fact_int : forall x n, (value x == inject_Z (Z.of_nat n))%Q -> (3 <= n)%nat -> (64 <= fuel)%nat ->
  ((n <= 27)%nat -> exists y, fact_of x = Ok y /\ (value y == inject_Z (fact n))%Q) /\ ((28 <= n)%nat -> fact_of x = Err Overflow).
Proof.
  intros x n Hx Hn Hf. pose proof (value_bound x _ Hx) as Hb. unfold fact_of, checked_factorial.
  rewrite (ed_positive _ _ EX x) by (rewrite Hx; change 0%Q with (inject_Z 0); rewrite <- Zlt_Qlt; lia).
  assert (V : d_eq L x (TWO L) || d_eq L x (ONE L) || d_eq L x (ZERO L) = false).
  { unfold TWO, ONE, ZERO. rewrite !(eq_int _ _ _ Hx) by reflexivity. destruct (Z.of_nat n =? 2) eqn:A; [lia|]. destruct (Z.of_nat n =? 1) eqn:B; [lia|]. destruct (Z.of_nat n =? 0) eqn:C; [lia|]. reflexivity. }
  rewrite V. assert (Lt : d_lt L x (ONE L) = false).
  { rewrite (d_lt_false L value EX), Hx, (one_val L value EX). change 1%Q with (inject_Z 1). rewrite <- Zle_Qle. lia. }
  rewrite Lt. destruct (sub_one x _ Hx ltac:(lia)) as (m & -> & M). cbn [must]. replace (Z.of_nat n - 1) with (Z.of_nat (n - 1)) in M by lia.
  assert (FF : Z.of_nat n * falling (Z.of_nat (n - 1)) (n - 1) = fact n).
  { rewrite falling_fact. destruct n as [|n]; [lia|]. cbn [fact]. replace (S n - 1)%nat with n by lia. reflexivity. }
  split; intros Hr.
  - pose proof (fact_mono n 27 Hr). pose proof fact_27. destruct (fact_loop_exact (n - 1) fuel (Z.of_nat n) x m) as (y & z & -> & Y & Z); [lia|lia|exact Hx|exact M|lia|lia|].
    rewrite (proj2 (is_zero_iff L value EX z) Z). cbn [negb]. rewrite FF in Y. eexists. split; [reflexivity|]. apply round_dp_int. exact Y.
  - rewrite (fact_loop_over 27 fuel (Z.of_nat (n - 1)) (Z.of_nat n) x m); [reflexivity|lia|lia|lia|exact Hx|exact M|lia|lia|].
    pose proof (falling_mono 27 27 (Z.of_nat (n - 1)) ltac:(lia) ltac:(lia)) as FM. change (falling 27 27) with (falling (Z.of_nat 27) 27) in FM. rewrite falling_fact in FM.
    pose proof fact_28 as F28. change (fact 28) with (Z.of_nat 28 * fact 27) in F28. assert (0 < fact 27) by reflexivity. nia.
Qed.

(** ** Aggregates *)
Section Fold.
Variable op : D -> D -> option D.
Variable qop : Q -> Q -> Q.
Hypothesis Hop : forall x y, computes value (qop (value x) (value y)) (op x y).
Variable unit_ : Q.
Hypothesis Hcomp : forall a b c d, (a == b)%Q -> (c == d)%Q -> (qop a c == qop b d)%Q.
Hypothesis Hassoc : forall a b c, (qop (qop a b) c == qop a (qop b c))%Q.
Hypothesis Hunit : forall a, (qop a unit_ == a)%Q.
Definition qfold (l : list Q) : Q := fold_right qop unit_ l.
Lemma qfold_comp : forall l a b, (a == b)%Q -> (qop a (qfold l) == qop b (qfold l))%Q.
Proof. intros. apply Hcomp; [assumption|reflexivity]. Qed.

Lemma fold_exact : forall args a s, (value a == s)%Q ->
  (forall k, (k <= List.length args)%nat -> representable (qop s (qfold (map value (firstn k args))))) ->
  exists y, fold_args (panic_op op) (Some a) args = Ok (Some y) /\ (value y == qop s (qfold (map value args)))%Q.
Proof.
  clear fuel. induction args as [|x args IH]; intros a s Ha HR.
  - exists a. split; [reflexivity|]. cbn. rewrite Hunit. exact Ha.
  - cbn [fold_args]. unfold panic_op at 1. destruct (computes_exact value _ _ (Hop a x)) as (y & -> & Y).
    + apply (rep_comp (qop s (qfold (map value (firstn 1 (x :: args)))))); [|apply HR; cbn; lia]. cbn. rewrite (Hcomp _ _ _ _ (Qeq_sym _ _ Ha) (Hunit (value x))). reflexivity.
    + cbn [rbind]. destruct (IH y (qop s (value x))) as (r & R1 & R2).
      * rewrite Y. apply Hcomp; [exact Ha|reflexivity].
      * intros k Hk. apply (rep_comp (qop s (qfold (map value (firstn (S k) (x :: args)))))); [|apply HR; cbn; lia]. cbn. symmetry. apply Hassoc.
      * exists r. split; [exact R1|]. rewrite R2. cbn. apply Hassoc.
Qed.
Lemma fold_over : forall args a s k, (value a == s)%Q -> (k <= List.length args)%nat ->
  (forall j, (j < k)%nat -> representable (qop s (qfold (map value (firstn j args))))) ->
  (inject_Z limit <= Qabs (qop s (qfold (map value (firstn k args)))))%Q -> representable s ->
  fold_args (panic_op op) (Some a) args = Panic.
Proof.
  clear fuel. induction args as [|x args IH]; intros a s k Ha Hk HR Ho Hs.
  - exfalso. assert (k = 0%nat) by (cbn in Hk; lia). subst. unfold qfold in Ho. cbn [firstn map fold_right] in Ho. rewrite Hunit in Ho. pose proof (rep_bound _ Hs) as B.
    pose proof (Qle_trans _ _ _ Ho B) as C. rewrite <- Zle_Qle in C. lia.
  - destruct k as [|k].
    { exfalso. unfold qfold in Ho. cbn [firstn map fold_right] in Ho. rewrite Hunit in Ho. pose proof (rep_bound _ Hs) as B. pose proof (Qle_trans _ _ _ Ho B) as C. rewrite <- Zle_Qle in C. lia. }
    cbn [fold_args]. unfold panic_op at 1. assert (E1 : (qop (value a) (value x) == qop s (qfold (map value (firstn 1 (x :: args)))))%Q).
    { cbn. apply Hcomp; [exact Ha|symmetry; apply Hunit]. }
    destruct k as [|k].
    + rewrite (computes_over value _ _ (Hop a x)); [reflexivity|]. rewrite E1. exact Ho.
    + destruct (computes_exact value _ _ (Hop a x)) as (y & -> & Y).
      * apply (rep_comp (qop s (qfold (map value (firstn 1 (x :: args)))))); [symmetry; exact E1|]. apply HR. lia.
      * cbn [rbind]. apply (IH y (qop s (value x)) (S k)).
        -- rewrite Y. apply Hcomp; [exact Ha|reflexivity].
        -- cbn in Hk. lia.
        -- intros j Hj. apply (rep_comp (qop s (qfold (map value (firstn (S j) (x :: args)))))); [|apply HR; lia]. cbn. symmetry. apply Hassoc.
        -- unfold qfold in *. cbn [firstn map fold_right] in Ho. cbn [firstn map fold_right]. rewrite Hassoc. exact Ho.
        -- apply (rep_comp (qop s (qfold (map value (firstn 1 (x :: args)))))); [cbn; apply Hcomp; [reflexivity|apply Hunit]|]. apply HR. lia.
Qed.
End Fold.

Lemma fold_none : forall op (args : list D), args <> [] -> fold_args (panic_op op) None args = fold_args (panic_op op) (Some (hd (ZERO L) args)) (tl args).
Proof. intros op [|x args] H; [congruence|reflexivity]. Qed.

(** ** max, min *)
Lemma best_spec : forall better (R : D -> D -> Prop), (forall a b, better a b = true -> R b a) -> (forall a b, better a b = false -> R a b) ->
  (forall a b c, R a b -> R b c -> R a c) -> (forall a, R a a) ->
  forall args a, exists m, best better (Some a) args = Some m /\ (m = a \/ In m args) /\ R a m /\ forall z, In z args -> R z m.
Proof.
  intros better R H1 H2 HT HR. induction args as [|x args IH]; intros a.
  - exists a. cbn. split; [reflexivity|]. split; [auto|]. split; [apply HR|intros z []].
  - cbn [best]. destruct (better x a) eqn:B.
    + destruct (IH x) as (m & M1 & M2 & M3 & M4). exists m. split; [exact M1|]. split; [cbn; destruct M2; auto|]. apply H1 in B. split; [eapply HT; eassumption|]. intros z [<-|Hz]; [exact M3|auto].
    + destruct (IH a) as (m & M1 & M2 & M3 & M4). exists m. split; [exact M1|]. split; [cbn; destruct M2; auto|]. apply H2 in B. split; [exact M3|]. intros z [<-|Hz]; [eapply HT; eassumption|auto].
Qed.
End Dec.
