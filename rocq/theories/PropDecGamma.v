(** * Factorials of decimals that are not whole (C86)

    The theorems hold for every decimal library whose arithmetic is as documented (SpecDecimal.exact_decimals, SpecRoots.good_roots,
    SpecDecGamma.rounds_places). The real functions are those of Coq's standard library. *)
From Coq Require Import List NArith ZArith QArith Qabs Qround Qreals Reals Bool Lia Lra String.
From Verif Require Import ModelBase ModelContext ModelText ModelDefault ModelFloat ModelNum ModelOps ModelStd ModelDecimal
  SpecText SpecExpr SpecOps SpecDecimal SpecRoots SpecGamma SpecDecGamma ProofText ProofDefault ProofBuild ProofCtx ProofDecRef ProofDecimal ProofDecimal2 ProofDecTrig ProofDecFun ProofDecFun2 PropDecimal PropDecimal3
  ProofReals ProofLn ProofExp ProofGamma ProofDecReal ProofDecReal2 ProofDecLn ProofDecExp PropExp ProofDecAtan ProofDecCbrt ProofDecRoot ProofDecArc ProofDecFactor PropGamma PropArc ProofDecRefRoot ProofDecGamma.
Import ListNotations.
Local Open Scope R_scope.
Local Notation falling := SpecGamma.falling.

Section Real.
Context {D : Type}.
Variable L : dlib D.
Variable value : D -> Q.
Hypothesis EX : exact_decimals L value.
Hypothesis GR : good_roots L value.
Hypothesis RP : rounds_places L value.
Variables tp a : D.
Variable fuel : nat.
Hypothesis E4 : d_mul L (TWO L) (cPI L) = Some tp.
Hypothesis E5 : checked_sqrt L fuel tp = Ok (Some a).
Hypothesis Hfuel : (64 <= fuel)%nat.
Notation v := (ProofDecReal.v value).

Lemma rounded r b e : near e (v r) b -> / 1000 <= b -> 0 <= e <= / 2 -> near (e + 5 / 10 ^ 13) (v (d_round_dp L 15 r)) b.
Proof.
  intros N B He. pose proof (RP 15%N r ltac:(discriminate)) as H. apply Qle_Rle in H. rewrite Q2R_mult, Q2R_int, Q2R_abs, Q2R_minus in H. replace (Q2R (1 # 2)) with (/ 2) in H by qnum. 
  change (10 ^ Z.of_N 15)%Z with (10 ^ Z.of_nat 15)%Z in H. rewrite <- pow_IZR in H. fold (v r) (v (d_round_dp L 15 r)) in H. unfold near in *. set (y := v (d_round_dp L 15 r)) in *. clearbody y.
  replace (y - b) with ((y - v r) + (v r - b)) by ring. eapply Rle_trans; [apply Rabs_triang|]. lra.
Qed.
Lemma plus_one n m : (value n == value m - 1)%Q -> exists y, d_add L n (ONE L) = Some y /\ (value y == value m)%Q.
Proof.
  intros H. pose proof (one_val L value EX) as V1. destruct (computes_exact value _ _ (ed_add _ _ EX n (ONE L))) as (z & Z1 & Z2).
  - apply (rep_comp (value m)); [rewrite V1, H; ring|apply (ed_representable _ _ EX)].
  - exists z. split; [exact Z1|]. rewrite Z2, V1, H. ring.
Qed.
Lemma not_whole x z : (inject_Z z < value x < inject_Z z + 1)%Q -> forall k, (Z.abs k < limit)%Z -> d_eq L x (int L k) = false.
Proof.
  intros [A B] k Hk. apply (d_eq_false L value EX). unfold int. rewrite (lit_val L value EX k Hk). intros E. rewrite E in A, B. rewrite <- Zlt_Qlt in A. change 1%Q with (inject_Z 1) in B. rewrite <- inject_Z_plus, <- Zlt_Qlt in B. lia.
Qed.
(** Below 1 *)
Lemma factorial_below x : (0 < value x < 1)%Q -> exists y, checked_factorial L fuel x = Ok (Some y) /\ near (/ 10 ^ 12) (v y) (decimal_formula (value x)).
Proof.
  intros H. pose proof (unit_R _ H) as U. change (Q2R (value x)) with (v x) in U. unfold checked_factorial. rewrite (ed_positive _ _ EX x) by apply H. assert (HW : (inject_Z 0 < value x < inject_Z 0 + 1)%Q) by (split; [apply H|]; setoid_replace (inject_Z 0 + 1)%Q with 1%Q by reflexivity; apply H).
  unfold TWO, ONE, ZERO. rewrite !(not_whole x 0 HW) by reflexivity. cbn [orb]. change (int L 1) with (ONE L). assert (LT : d_lt L x (ONE L) = true) by (apply (v_lt L value EX); rewrite (v_one L value EX); lra). rewrite LT.
  destruct (computes_exact value _ _ (ed_add _ _ EX x (ONE L))) as (s & S1 & S2).
  { apply (rep_comp (inject_Z 1 + inject_Z 1 * value x)); [rewrite (one_val L value EX); unfold inject_Z; ring|]. apply rep_shift; [apply (ed_representable _ _ EX)|auto|]. left. apply Rle_Qle. rewrite Q2R_abs, Q2R_plus, Q2R_mult, !Q2R_int. change (Q2R (value x)) with (v x). rewrite Rabs_pos_eq by lra. replace (Q2R 7) with 7 by qnum. lra. }
  unfold d_add. rewrite S1. cbn [must].
  rewrite (one_val L value EX) in S2. assert (VS : v s = v x + 1). { apply Qeq_eqR in S2. rewrite Q2R_plus, Q2R_1 in S2. exact S2. }
  destruct (gamma_upper L value EX GR tp a fuel E4 E5 ltac:(lia) fuel s ltac:(lra)) as (g & G & N). unfold gamma. rewrite G. cbn [ModelDecimal.call]. exists (d_round_dp L 15 g). split; [reflexivity|]. assert (E : (value s - 1 == value x)%Q) by (rewrite S2; ring). rewrite (formula_comp _ _ E) in N.
  assert (FR : / 100 <= decimal_formula (value x) <= 3700) by (apply decimal_formula_range; change (Q2R (value x)) with (v x); lra).
  apply (near_weak (3 / 10 ^ 13 + 5 / 10 ^ 13)); [lra|lra|]. apply rounded; [exact N|lra|lra].
Qed.
(** Above 1: the factors, and what is left. *)
Lemma factorial_reduces x k : (1 <= k <= 22)%nat -> (inject_Z (Z.of_nat k) < value x < inject_Z (Z.of_nat k) + 1)%Q ->
  exists p y, (value y == value x - inject_Z (Z.of_nat k))%Q /\ (/ 6 <= v y -> near (/ 10 ^ 15) (v p) (Q2R (falling (value x) (S k)))) /\
  checked_factorial L fuel x = ModelDecimal.call (gamma L fuel y) (fun g => must (d_mul L p g) (fun r => some (d_round_dp L 15 r))).
Proof.
  intros K HK. set (f := (value x - inject_Z (Z.of_nat k))%Q). assert (Hf : (0 < f < 1)%Q). { destruct HK as [K2 K3]. unfold f. split; apply Qplus_lt_l with (inject_Z (Z.of_nat k)); ring_simplify; [exact K2|exact K3]. }
  pose proof (unit_R _ Hf) as U. assert (VX : v x = Q2R f + IZR (Z.of_nat k)) by (unfold f; rewrite Q2R_minus, Q2R_int; unfold ProofDecReal.v; lra). assert (KR : 1 <= IZR (Z.of_nat k) <= 22) by (split; apply IZR_le; lia).
  unfold checked_factorial. assert (X0 : (0 < value x)%Q) by (apply Rlt_Qlt; rewrite Q2R_0; change (0 < v x); lra). rewrite (ed_positive _ _ EX x X0).
  unfold TWO, ONE, ZERO. rewrite !(not_whole x _ HK) by reflexivity. cbn [orb]. change (int L 1) with (ONE L). assert (LT : d_lt L x (ONE L) = false) by (apply (v_lt_f L value EX); rewrite (v_one L value EX); lra). rewrite LT.
  destruct (minus_one L value EX x ltac:(lra)) as (n0 & -> & N2). cbn [must]. assert (Vn : (value n0 == value x - 1)%Q) by (apply eqR_Qeq; rewrite Q2R_minus, Q2R_1; exact N2).
  destruct k as [|k]; [lia|]. assert (Vn2 : (value n0 == f + inject_Z (Z.of_nat k))%Q). { rewrite Vn. unfold f. rewrite Nat2Z.inj_succ. unfold Z.succ. rewrite inject_Z_plus. change (inject_Z 1) with 1%Q. ring. }
  pose proof (falling_bound (S k) (value x) (Qlt_le_weak _ _ (proj1 HK)) (Qlt_le_weak _ _ (proj2 HK))) as [FB1 FB2]. apply Qle_Rle in FB1, FB2. rewrite Q2R_int in FB2. rewrite Q2R_1 in FB1.
  assert (FB3 : IZR (SpecOps.fact (S (S k))) <= 10 ^ 23). { rewrite pow_IZR. apply IZR_le. apply Z.le_trans with (SpecOps.fact 23); [apply ProofDecimal2.fact_mono; lia|]. vm_compute. discriminate. }
  change (falling (value x) (S k)) with (value x * falling (value x - 1) k)%Q in FB1, FB2. rewrite <- (Qeq_eqR _ _ (Qmult_comp _ _ (Qeq_refl (value x)) _ _ (falling_comp k _ _ Vn))), Q2R_mult in FB1, FB2. change (Q2R (value x)) with (v x) in FB1, FB2.
  destruct (loop_steps L value EX f U k 0 fuel x n0 (v x) Vn2 ltac:(lia) ltac:(lra)) as (r & n & -> & A & B); [cbn [INR]; rewrite Rmult_0_l; apply near_b; lra|lra|lia|].
  set (T := v x * Q2R (falling (value n0) k)) in *. cbn [Nat.add] in B. assert (IK : 0 <= INR k <= 21) by (split; [apply pos_INR|replace 21 with (INR 21) by (rewrite INR_IZR_INZ; reflexivity); apply le_INR; lia]).
  assert (B' : near (42 / 10 ^ 18) (v r) T) by (apply (near_weak (INR k * (2 / 10 ^ 18))); [lra|lra|exact B]). pose proof (near_range (42 / 10 ^ 18) (v r) T 1 (10 ^ 23) ltac:(lra) ltac:(lra) B' ltac:(lra)) as RR.
  assert (VN : v n = Q2R f) by (apply Qeq_eqR; exact A). assert (RN : 0 <= v r * v n <= 2 * 10 ^ 23) by (rewrite VN; split; [apply Rmult_le_pos; lra|apply Rle_trans with (2 * 10 ^ 23 * 1); [apply Rmult_le_compat; lra|lra]]).
  destruct (mulr L value EX r n) as (p & P1 & P2); [rewrite Rabs_pos_eq; lra|]. destruct (less_one L value EX n ltac:(rewrite VN; apply Rabs_le; lra)) as (m & M1 & M2 & M3).
  assert (GT : d_gt L n (ZERO L) = true). { rewrite (d_gt_iff L value EX). apply Rlt_Qlt. change (v (ZERO L) < v n). rewrite (v_zero L value EX). lra. }
  assert (GF : d_gt L m (ZERO L) = false). { rewrite (d_gt_false L value EX). apply Rle_Qle. change (v m <= v (ZERO L)). rewrite (v_zero L value EX). lra. }
  destruct (plus_one m n M2) as (y & Y1 & Y2). exists p, y. split; [rewrite Y2; exact A|]. split.
  - intros H6. assert (VY : v y = Q2R f) by (apply Qeq_eqR; rewrite Y2; exact A). rewrite VY in H6.
    assert (FL : Q2R (falling (value x) (S (S k))) = T * Q2R f). { rewrite (Qeq_eqR _ _ (falling_last (S k) (value x))), Q2R_mult. fold f. f_equal. change (falling (value x) (S k)) with (value x * falling (value x - 1) k)%Q. rewrite <- (Qeq_eqR _ _ (Qmult_comp _ _ (Qeq_refl (value x)) _ _ (falling_comp k _ _ Vn))), Q2R_mult. reflexivity. }
    rewrite FL. assert (TP : 0 < T * Q2R f) by (apply Rmult_lt_0_compat; lra). assert (E0 : near 0 (v n) (Q2R f)) by (apply near_b; lra).
    pose proof (near_mul (42 / 10 ^ 18) 0 (v r) T (v n) (Q2R f) ltac:(lra) ltac:(lra) ltac:(lra) ltac:(lra) B' E0) as M. pose proof (product3 (v r) (v n) (/ 2 * 1) (2 * 10 ^ 23) (/ 6) 1 ltac:(lra) ltac:(lra) RR ltac:(lra)) as RM.
    destruct (mul_near L value EX r n ltac:(lra)) as (z & Z1 & Z2). rewrite P1 in Z1. injection Z1 as <-.
    apply (near_weak (/ 10 ^ 18 + (42 / 10 ^ 18 + 0 + 42 / 10 ^ 18 * 0) + / 10 ^ 18 * (42 / 10 ^ 18 + 0 + 42 / 10 ^ 18 * 0))); [lra|exact TP|]. apply near_trans with (v r * v n); [lra|lra|exact TP|exact Z2|exact M].
  - destruct (fuel - k)%nat as [|fl] eqn:FE; [lia|]. cbn [fact_loop]. rewrite GT, P1, M1. assert (LE : fact_loop L fl p m = Ok (Some (p, m))) by (destruct fl; cbn [fact_loop]; rewrite GF; reflexivity). rewrite LE.
    assert (ZM : is_zero L m = false). { apply not_true_iff_false. rewrite (is_zero_iff L value EX). intros E. apply Qeq_eqR in E. rewrite Q2R_0 in E. change (v m = 0) in E. lra. }
    rewrite ZM. cbn [negb]. rewrite Y1. cbn [must]. reflexivity.
Qed.
End Real.

(** ** The theorems *)
(** [sqrt (2 * pi)] can be evaluated (Newton's iteration, whose end is not proved here: see C77). *)
Definition root_evaluates {D W} (L : dlib D) (c : ctx D W) (w : W) : Prop :=
  exists p r, apply_binary c (lit "*") (d_lit L 2 0) (d_lit L 31415926535897932384626433833 28) w = (Ok p, w) /\ apply_function c (lit "sqrt") [p] w = (Ok r, w).
Lemma root_parts : forall D W (L : dlib D) fuel (rnd : W -> f64 * W) E dbg cf d, decimal_context L fuel rnd E dbg cf = Ok d -> forall w, root_evaluates L (to_ctx E d) w ->
  exists tp a, d_mul L (TWO L) (cPI L) = Some tp /\ checked_sqrt L fuel tp = Ok (Some a).
Proof.
  intros D W L fuel rnd E dbg cf d Hd w (p & r & A & B). exists p, r. pose proof (bin_is D W L fuel rnd E dbg cf d Hd (d_lit L 2 0) (d_lit L 31415926535897932384626433833 28) w) as (_ & _ & M & _).
  rewrite M in A. apply op_ok in A. rewrite (sqrt_is L fuel rnd E dbg cf d Hd) in B. apply fun_ok in B. split; [exact A|exact B].
Qed.
(** Between 0 and 1 the answer is Lanczos' formula, to twelve digits. *)
Theorem C86_below_one : forall D W (L : dlib D) value, exact_decimals L value -> good_roots L value -> rounds_places L value ->
  forall fuel (rnd : W -> f64 * W) E dbg cf d, decimal_context L fuel rnd E dbg cf = Ok d -> (64 <= fuel)%nat -> forall w, root_evaluates L (to_ctx E d) w ->
  forall x, (0 < value x < 1)%Q ->
  exists y, apply_unary (to_ctx E d) (lit "!") x w = (Ok y, w) /\ Rabs (Q2R (value y) - decimal_formula (value x)) <= / 10 ^ 12 * decimal_formula (value x).
Proof.
  intros D W L value EX GR RP fuel rnd E dbg cf d Hd Hf w HR x Hx. destruct (root_parts D W L fuel rnd E dbg cf d Hd w HR) as (tp & a & E4 & E5).
  destruct (factorial_below L value EX GR RP tp a fuel E4 E5 Hf x Hx) as (y & Y & N). exists y. rewrite (fact_is D W L fuel rnd E dbg cf d Hd). unfold fact_of. rewrite Y. split; [reflexivity|exact N].
Qed.
Print Assumptions C86_below_one.
Lemma falling_size value_x k : (1 <= k <= 22)%nat -> (inject_Z (Z.of_nat k) < value_x < inject_Z (Z.of_nat k) + 1)%Q -> 1 <= Q2R (falling value_x k) <= 10 ^ 23.
Proof.
  intros K HK. pose proof (falling_bound k value_x (Qlt_le_weak _ _ (proj1 HK)) (Qlt_le_weak _ _ (proj2 HK))) as [A B]. apply Qle_Rle in A, B. rewrite Q2R_int in B. rewrite Q2R_1 in A. split; [exact A|]. eapply Rle_trans; [exact B|].
  rewrite pow_IZR. apply IZR_le. apply Z.le_trans with (SpecOps.fact 23); [apply ProofDecimal2.fact_mono; lia|]. vm_compute. discriminate.
Qed.
Section Above.
Context {D : Type}.
Variable L : dlib D.
Variable value : D -> Q.
Hypothesis EX : exact_decimals L value.
Hypothesis RP : rounds_places L value.
Notation v := (ProofDecReal.v value).
Lemma last_product p g P G : near (/ 10 ^ 15) (v p) P -> near (4 / 10 ^ 13) (v g) G -> / 6 <= P <= 10 ^ 23 -> / 100 <= G <= 24000 ->
  exists y, must (d_mul L p g) (fun r => some (d_round_dp L 15 r)) = Ok (Some y) /\ near (/ 10 ^ 12) (v y) (P * G).
Proof.
  intros NP NG BP BG. pose proof (near_range (/ 10 ^ 15) (v p) P (/ 6) (10 ^ 23) ltac:(lra) ltac:(lra) NP BP) as RP1. pose proof (near_range (4 / 10 ^ 13) (v g) G (/ 100) 24000 ltac:(lra) ltac:(lra) NG BG) as RG.
  pose proof (product3 (v p) (v g) (/ 2 * / 6) (2 * 10 ^ 23) (/ 2 * / 100) (2 * 24000) ltac:(lra) ltac:(lra) RP1 RG) as RR. destruct (mul_near L value EX p g ltac:(lra)) as (z & -> & Z). cbn [must]. exists (d_round_dp L 15 z). split; [reflexivity|].
  pose proof (near_mul (/ 10 ^ 15) (4 / 10 ^ 13) (v p) P (v g) G ltac:(lra) ltac:(lra) ltac:(lra) ltac:(lra) NP NG) as M. pose proof (product3 P G (/ 6) (10 ^ 23) (/ 100) 24000 ltac:(lra) ltac:(lra) BP BG) as BB. set (B := P * G) in *. clearbody B.
  set (e := / 10 ^ 15 + 4 / 10 ^ 13 + / 10 ^ 15 * (4 / 10 ^ 13)) in *. assert (He : 0 <= e <= 4.02 / 10 ^ 13) by (unfold e; split; lra). clearbody e.
  pose proof (near_trans (/ 10 ^ 18) e (v z) (v p * v g) B ltac:(lra) ltac:(lra) ltac:(lra) Z M) as T. apply (near_weak ((/ 10 ^ 18 + e + / 10 ^ 18 * e) + 5 / 10 ^ 13)); [|lra|].
  - lra.
  - apply (rounded L value RP); [exact T|lra|lra].
Qed.
End Above.
(** The real product of [x], [x - 1], ... down to the fraction. *)
Lemma whole_falling q k : (1 <= k <= 22)%nat -> (inject_Z (Z.of_nat k) < q < inject_Z (Z.of_nat k) + 1)%Q -> (1 # 6 <= q - inject_Z (Z.of_nat k))%Q -> / 6 <= Q2R (falling q (S k)) <= 10 ^ 23.
Proof.
  intros K HK H6. pose proof (falling_size q k K HK) as F. rewrite (Qeq_eqR _ _ (falling_last k q)), Q2R_mult. assert (U : (q - inject_Z (Z.of_nat k) <= 1)%Q) by (apply Qle_trans with ((inject_Z (Z.of_nat k) + 1) - inject_Z (Z.of_nat k))%Q; [apply Qplus_le_compat; [apply Qlt_le_weak, HK|apply Qle_refl]|ring_simplify; apply Qle_refl]).
  set (f := (q - inject_Z (Z.of_nat k))%Q) in *. clearbody f. apply Qle_Rle in H6, U. rewrite Q2R_1 in U. replace (Q2R (1 # 6)) with (/ 6) in H6 by qnum. pose proof (product3 _ _ 1 (10 ^ 23) (/ 6) 1 ltac:(lra) ltac:(lra) F (conj H6 U)). lra.
Qed.
(** Above 1, with a fraction of one half or more: the product of the falling factors, the fraction among them, and of the formula for
    the gamma function of the fraction. *)
Theorem C86_above_one : forall D W (L : dlib D) value, exact_decimals L value -> good_roots L value -> rounds_places L value ->
  forall fuel (rnd : W -> f64 * W) E dbg cf d, decimal_context L fuel rnd E dbg cf = Ok d -> (64 <= fuel)%nat -> forall w, root_evaluates L (to_ctx E d) w ->
  forall x k, (1 <= k <= 22)%nat -> (inject_Z (Z.of_nat k) < value x < inject_Z (Z.of_nat k) + 1)%Q -> let f := (value x - inject_Z (Z.of_nat k))%Q in (1 # 2 <= f)%Q ->
  exists y, apply_unary (to_ctx E d) (lit "!") x w = (Ok y, w) /\
    let exact := Q2R (falling (value x) (S k)) * decimal_formula (f - 1) in Rabs (Q2R (value y) - exact) <= / 10 ^ 12 * exact.
Proof.
  intros D W L value EX GR RP fuel rnd E dbg cf d Hd Hf w HR x k K HK f Hh. destruct (root_parts D W L fuel rnd E dbg cf d Hd w HR) as (tp & a & E4 & E5).
  destruct (factorial_reduces L value EX fuel Hf x k K HK) as (p & y & Y & NP & R). rewrite (fact_is D W L fuel rnd E dbg cf d Hd). unfold fact_of. rewrite R. fold f in Y.
  assert (Y2 : ProofDecReal.v value y = Q2R f) by (apply Qeq_eqR; exact Y). pose proof (Qle_Rle _ _ Hh) as HR2. replace (Q2R (1 # 2)) with (/ 2) in HR2 by qnum. assert (F1 : Q2R f < 1). { apply Rlt_le_trans with (Q2R (inject_Z (Z.of_nat k) + 1) - Q2R (inject_Z (Z.of_nat k))); [|rewrite Q2R_plus, Q2R_1; lra]. unfold f. rewrite Q2R_minus. pose proof (Qlt_Rlt _ _ (proj2 HK)). lra. }
  specialize (NP ltac:(rewrite Y2; lra)). destruct (gamma_upper L value EX GR tp a fuel E4 E5 ltac:(lia) fuel y ltac:(rewrite Y2; lra)) as (g & G & NG). unfold gamma. rewrite G. cbn [ModelDecimal.call].
  assert (EQ : (value y - 1 == f - 1)%Q) by (rewrite Y; reflexivity). rewrite (formula_comp _ _ EQ) in NG. assert (FR : / 100 <= decimal_formula (f - 1) <= 3700) by (apply decimal_formula_range; rewrite Q2R_minus, Q2R_1; lra).
  destruct (last_product L value EX RP p g (Q2R (falling (value x) (S k))) (decimal_formula (f - 1)) NP) as (z & Z & NZ); [apply (near_weak (3 / 10 ^ 13)); [lra|lra|exact NG]| |lra|].
  - apply whole_falling; [exact K|exact HK|]. fold f. eapply Qle_trans; [|exact Hh]. discriminate.
  - rewrite Z. exists z. split; [reflexivity|exact NZ].
Qed.
Print Assumptions C86_above_one.
(** With a smaller fraction [f] (one sixth or more) the gamma function is computed by the reflection formula, which should divide by
    gamma (1 - f) and multiplies by it. *)
Theorem C86_small_fractions : forall D W (L : dlib D) value, exact_decimals L value -> good_roots L value -> rounds_places L value ->
  forall fuel (rnd : W -> f64 * W) E dbg cf d, decimal_context L fuel rnd E dbg cf = Ok d -> (64 <= fuel)%nat -> forall w, root_evaluates L (to_ctx E d) w ->
  forall x k, (1 <= k <= 22)%nat -> (inject_Z (Z.of_nat k) < value x < inject_Z (Z.of_nat k) + 1)%Q -> let f := (value x - inject_Z (Z.of_nat k))%Q in (1 # 6 <= f < 1 # 2)%Q ->
  exists y, apply_unary (to_ctx E d) (lit "!") x w = (Ok y, w) /\
    let computed := Q2R (falling (value x) (S k)) * (PI / sin (PI * Q2R f) * decimal_formula (- f)) in Rabs (Q2R (value y) - computed) <= / 10 ^ 12 * computed.
Proof.
  intros D W L value EX GR RP fuel rnd E dbg cf d Hd Hf w HR x k K HK f [H6 Hh]. destruct (root_parts D W L fuel rnd E dbg cf d Hd w HR) as (tp & a & E4 & E5).
  destruct (factorial_reduces L value EX fuel Hf x k K HK) as (p & y & Y & NP & R). rewrite (fact_is D W L fuel rnd E dbg cf d Hd). unfold fact_of. rewrite R. fold f in Y.
  assert (Y2 : ProofDecReal.v value y = Q2R f) by (apply Qeq_eqR; exact Y). pose proof (Qlt_Rlt _ _ Hh) as HR2. pose proof (Qle_Rle _ _ H6) as HR3. replace (Q2R (1 # 2)) with (/ 2) in HR2 by qnum. replace (Q2R (1 # 6)) with (/ 6) in HR3 by qnum.
  specialize (NP ltac:(rewrite Y2; lra)). destruct (gamma_lower L value EX GR tp a fuel E4 E5 ltac:(lia) fuel y ltac:(lia) ltac:(rewrite Y2; lra)) as (g & G & NG). unfold gamma. rewrite G. cbn [ModelDecimal.call].
  assert (EQ : (- value y == - f)%Q) by (rewrite Y; reflexivity). rewrite (formula_comp _ _ EQ), Y2 in NG. assert (FR : / 100 <= decimal_formula (- f) <= 3700) by (apply decimal_formula_range; rewrite Q2R_opp; lra).
  pose proof (sin_high (Q2R f) ltac:(lra)) as SH. pose proof pi_b as PB. apply Rabs_le_inv in PB.
  assert (QR : 3 <= PI / sin (PI * Q2R f) <= 6.4). { set (s := sin (PI * Q2R f)) in *. clearbody s. split; [apply Rmult_le_reg_r with s|apply Rmult_le_reg_r with s]; try lra; unfold Rdiv; rewrite Rmult_assoc, Rinv_l, Rmult_1_r by lra; lra. }
  pose proof (product3 _ _ 3 6.4 (/ 100) 3700 ltac:(lra) ltac:(lra) QR FR) as GR2.
  destruct (last_product L value EX RP p g (Q2R (falling (value x) (S k))) (PI / sin (PI * Q2R f) * decimal_formula (- f)) NP NG) as (z & Z & NZ); [|lra|].
  - apply whole_falling; [exact K|exact HK|exact H6].
  - rewrite Z. exists z. split; [reflexivity|exact NZ].
Qed.
Print Assumptions C86_small_fractions.
(** A fraction below 2 / 10 ^ 17: the sine of it is 0, and the program divides by it. *)
Theorem C86_tiny_fraction_panics : forall D W (L : dlib D) value, exact_decimals L value -> forall fuel (rnd : W -> f64 * W) E dbg cf d, decimal_context L fuel rnd E dbg cf = Ok d -> (64 <= fuel)%nat ->
  forall x k w, (1 <= k <= 22)%nat -> (0 < value x - inject_Z (Z.of_nat k) <= 2 # 100000000000000000)%Q -> apply_unary (to_ctx E d) (lit "!") x w = (Panic, w).
Proof.
  intros D W L value EX fuel rnd E dbg cf d Hd Hf x k w K [A B]. rewrite (fact_is D W L fuel rnd E dbg cf d Hd). unfold fact_of.
  assert (HK : (inject_Z (Z.of_nat k) < value x < inject_Z (Z.of_nat k) + 1)%Q). { split; apply Qplus_lt_l with (- inject_Z (Z.of_nat k))%Q; ring_simplify; [setoid_replace (-1 * inject_Z (Z.of_nat k) + value x)%Q with (value x - inject_Z (Z.of_nat k))%Q by ring; exact A|]. setoid_replace (value x + -1 * inject_Z (Z.of_nat k))%Q with (value x - inject_Z (Z.of_nat k))%Q by ring. eapply Qle_lt_trans; [exact B|reflexivity]. }
  destruct (factorial_reduces L value EX fuel Hf x k K HK) as (p & y & Y & _ & R). rewrite R. unfold gamma. rewrite (gamma_tiny L value EX); [reflexivity|].
  rewrite <- Y in A, B. apply Qlt_Rlt in A. apply Qle_Rle in B. rewrite Q2R_0 in A. change (Q2R (value y)) with (ProofDecReal.v value y) in *. replace (2 / 10 ^ 17) with (Q2R (2 # 100000000000000000)) by qnum. lra.
Qed.
Print Assumptions C86_tiny_fraction_panics.
(** So the factorial does not satisfy its recurrence: [1.4!] is over one fifth more than [1.4 * 0.4!]. *)
Lemma formula_gap : 1.09 * decimal_formula (4 # 10) <= decimal_formula (- (4 # 10)).
Proof.
  unfold decimal_formula. rewrite !Q2R_opp. replace (Q2R (4 # 10)) with 0.4 by qnum. cbv zeta.
  set (a := 0.4 + 47421875 / 10000000 + / 2). set (b := Ropp 0.4 + 47421875 / 10000000 + / 2). assert (Ea : a = 5.6421875) by (unfold a; lra). assert (Eb : b = 4.8421875) by (unfold b; lra). rewrite Ea, Eb. clear a b Ea Eb. pose proof two_pi as KR. set (K := sqrt (2 * PI)) in *. clearbody K.
  assert (SR : 3 * Q2R (decimal_factor (4 # 10)) <= Q2R (decimal_factor (- (4 # 10)))). { pose proof (Qle_Rle _ _ factor_ratio) as H. rewrite Q2R_mult in H. replace (Q2R 3) with 3 in H by qnum. exact H. }
  assert (S0 : 12 <= Q2R (decimal_factor (4 # 10))). { assert (R4 : (- (1 # 2) <= 4 # 10 <= 1)%Q) by (split; discriminate). pose proof (Qle_Rle _ _ (proj1 (decimal_factor_range (4 # 10) R4))) as H. replace (Q2R 12) with 12 in H by qnum. exact H. }
  set (s := Q2R (decimal_factor (4 # 10))) in *. set (t := Q2R (decimal_factor (- (4 # 10)))) in *. clearbody s t.
  assert (P1 : Rpower 5.6421875 (0.4 + / 2) <= 5.65). { apply Rle_trans with (Rpower 5.6421875 1); [apply Rle_Rpower; lra|rewrite Rpower_1; lra]. } assert (P0 : 0 < Rpower 5.6421875 (0.4 + / 2)) by apply exp_pos.
  assert (P2 : 1 <= Rpower 4.8421875 (Ropp 0.4 + / 2)). { rewrite <- (Rpower_O 4.8421875) by lra. apply Rle_Rpower; lra. }
  assert (EE : 2.07 * exp (Ropp 5.6421875) <= exp (Ropp 4.8421875)). { replace (Ropp 4.8421875) with (0.2 + 0.2 + (0.2 + 0.2) + Ropp 5.6421875) by lra. rewrite !exp_plus. apply Rmult_le_compat_r; [left; apply exp_pos|]. pose proof (exp_ineq1 0.2 ltac:(lra)) as X. apply Rle_trans with (1.2 * 1.2 * (1.2 * 1.2)); [lra|]. repeat apply Rmult_le_compat; lra. }
  pose proof (exp_pos (Ropp 5.6421875)) as E0. set (e := exp (Ropp 5.6421875)) in *. set (g := exp (Ropp 4.8421875)) in *. set (p := Rpower 5.6421875 (0.4 + / 2)) in *. set (q := Rpower 4.8421875 (Ropp 0.4 + / 2)) in *. clearbody e g p q.
  assert (K0 : 0 <= K * e * s) by (repeat apply Rmult_le_pos; lra). assert (Kep : K * e * s * p <= K * e * s * 5.65) by (apply Rmult_le_compat_l; lra).
  assert (A1 : K * 1 * (2.07 * e) <= K * q * g). { apply Rmult_le_compat; [apply Rmult_le_pos; lra|lra|apply Rmult_le_compat_l; lra|exact EE]. }
  assert (A2 : K * 1 * (2.07 * e) * (3 * s) <= K * q * g * t) by (apply Rmult_le_compat; [assert (0 <= K * e) by (apply Rmult_le_pos; lra); lra|lra|exact A1|exact SR]).
  replace (1.09 * (K * p * e * s)) with (1.09 * (K * e * s * p)) by ring. replace (K * 1 * (2.07 * e) * (3 * s)) with (6.21 * (K * e * s)) in A2 by lra. set (m := K * e * s) in *. clearbody m. set (mp := m * p) in *. clearbody mp. lra.
Qed.
Theorem C86_recurrence_refuted : forall D W (L : dlib D) value, exact_decimals L value -> good_roots L value -> rounds_places L value ->
  forall fuel (rnd : W -> f64 * W) E dbg cf d, decimal_context L fuel rnd E dbg cf = Ok d -> (64 <= fuel)%nat -> forall w, root_evaluates L (to_ctx E d) w ->
  forall a b, (value a == 4 # 10)%Q -> (value b == 14 # 10)%Q ->
  exists y z, apply_unary (to_ctx E d) (lit "!") a w = (Ok y, w) /\ apply_unary (to_ctx E d) (lit "!") b w = (Ok z, w) /\ (0 < value y)%Q /\ ((12 # 10) * (value b * value y) < value z)%Q.
Proof.
  intros D W L value EX GR RP fuel rnd E dbg cf d Hd Hf w HR a b Ha Hb.
  destruct (C86_below_one D W L value EX GR RP fuel rnd E dbg cf d Hd Hf w HR a) as (y & Y & NY); [rewrite Ha; split; reflexivity|].
  destruct (C86_small_fractions D W L value EX GR RP fuel rnd E dbg cf d Hd Hf w HR b 1%nat ltac:(lia)) as (z & Z & NZ); [rewrite Hb; split; reflexivity|rewrite Hb; split; [discriminate|reflexivity]|].
  exists y, z. split; [exact Y|]. split; [exact Z|]. rewrite (formula_comp _ _ Ha) in NY. assert (EF : (value b - inject_Z (Z.of_nat 1) == 4 # 10)%Q) by (rewrite Hb; reflexivity). cbv zeta in NZ. rewrite (formula_comp _ _ (Qopp_comp _ _ EF)), (Qeq_eqR _ _ EF), (Qeq_eqR _ _ (falling_comp 2 _ _ Hb)) in NZ.
  replace (Q2R (falling (14 # 10) 2)) with 0.56 in NZ by (unfold Q2R; cbn; lra). replace (Q2R (4 # 10)) with 0.4 in NZ by qnum. apply Rabs_le_inv in NY, NZ.
  pose proof formula_gap as GAP. assert (FR : / 100 <= decimal_formula (4 # 10)) by (apply decimal_formula_range; replace (Q2R (4 # 10)) with 0.4 by qnum; lra). set (F := decimal_formula (4 # 10)) in *. set (G := decimal_formula (- (4 # 10))) in *. clearbody F G.
  pose proof (sin_high 0.4 ltac:(lra)) as SH. pose proof pi_b as PB. apply Rabs_le_inv in PB. set (s := sin (PI * 0.4)) in *. clearbody s.
  assert (QR : 3.14 <= PI / s). { apply Rmult_le_reg_r with s; [lra|]. unfold Rdiv. rewrite Rmult_assoc, Rinv_l, Rmult_1_r by lra. lra. } set (r := PI / s) in *. clearbody r.
  assert (M : 3.14 * G <= r * G) by (apply Rmult_le_compat_r; lra). split; apply Rlt_Qlt; [rewrite Q2R_0; lra|]. rewrite !Q2R_mult, (Qeq_eqR _ _ Hb). replace (Q2R (12 # 10)) with 1.2 by qnum. replace (Q2R (14 # 10)) with 1.4 by qnum. set (rg := r * G) in *. clearbody rg. lra.
Qed.
Print Assumptions C86_recurrence_refuted.

(** ** The reference decimals meet the specifications. *)
Lemma ref_places : rounds_places ref_lib val.
Proof.
  intros n x Hn. cbn [d_round_dp ref_lib]. destruct (dec_ok x) as [C S]. destruct (Z.leb_spec (scale x) (Z.of_N n)) as [H|H].
  - setoid_replace (val x - val x)%Q with 0%Q by ring. rewrite (Qmult_0_l). discriminate.
  - set (k := (scale x - Z.of_N n)%Z). assert (T : (0 < 10 ^ k)%Z) by (apply Z.pow_pos_nonneg; lia). pose proof (round_div_close (coef x) (10 ^ k) T) as RC. pose proof (proj1 (round_div_bound (coef x) (10 ^ k) (limit - 1) T ltac:(vm_compute; discriminate))) as RB.
    assert (RL : (Z.abs (round_div (coef x) (10 ^ k)) < limit)%Z). { assert (Z.abs (coef x) <= (limit - 1) * 10 ^ k)%Z by nia. lia. }
    destruct (mk0_ok (round_div (coef x) (10 ^ k)) (Z.of_N n) RL ltac:(lia)) as [E1 E2]. pose proof (val_eq (mk0 (round_div (coef x) (10 ^ k)) (Z.of_N n))) as V1. rewrite E1, E2 in V1. pose proof (val_eq x) as V2.
    set (y := mk0 (round_div (coef x) (10 ^ k)) (Z.of_N n)) in *. set (c := round_div (coef x) (10 ^ k)) in *. replace (scale x) with (Z.of_N n + k)%Z in V2 by (unfold k; lia). rewrite Z.pow_add_r, inject_Z_mult in V2 by (unfold k; lia).
    assert (T2 : (0 < 10 ^ Z.of_N n)%Z) by (apply Z.pow_pos_nonneg; lia). assert (B : (2 * (Qabs (val y - val x) * inject_Z (10 ^ Z.of_N n)) * inject_Z (10 ^ k) <= inject_Z (10 ^ k))%Q).
    { setoid_replace (2 * (Qabs (val y - val x) * inject_Z (10 ^ Z.of_N n)) * inject_Z (10 ^ k))%Q with (2 * (Qabs (val y - val x) * (inject_Z (10 ^ Z.of_N n) * inject_Z (10 ^ k))))%Q by ring. 
      rewrite <- (Qabs_pos (inject_Z (10 ^ Z.of_N n) * inject_Z (10 ^ k))) by (rewrite <- inject_Z_mult; change 0%Q with (inject_Z 0); rewrite <- Zle_Qle; lia). rewrite <- Qabs_Qmult.
      setoid_replace ((val y - val x) * (inject_Z (10 ^ Z.of_N n) * inject_Z (10 ^ k)))%Q with (inject_Z (c * 10 ^ k - coef x)).
      - change (Qabs (inject_Z (c * 10 ^ k - coef x))) with (inject_Z (Z.abs (c * 10 ^ k - coef x))). change 2%Q with (inject_Z 2). rewrite <- inject_Z_mult, <- Zle_Qle. exact RC.
      - unfold Zminus at 1. rewrite inject_Z_plus, inject_Z_opp, inject_Z_mult, <- V1, <- V2. ring. }
    apply (Qmult_le_r _ _ (2 * inject_Z (10 ^ k))%Q); [change 2%Q with (inject_Z 2); rewrite <- inject_Z_mult; change 0%Q with (inject_Z 0); rewrite <- Zlt_Qlt; lia|]. setoid_replace ((1 # 2) * (2 * inject_Z (10 ^ k)))%Q with (inject_Z (10 ^ k)) by (field). eapply Qle_trans; [|exact B]. apply Qle_lteq. right. ring.
Qed.
Definition root_shown {D} (L : dlib D) (c : ctx D unit) : bool :=
  match apply_binary c (lit "*") (d_lit L 2 0) (d_lit L 31415926535897932384626433833 28) tt with
  | (Ok p, _) => match apply_function c (lit "sqrt") [p] tt with (Ok r, _) => true | _ => false end | _ => false end.
Lemma root_of_shown D (L : dlib D) c : root_shown L c = true -> root_evaluates L c tt.
Proof.
  unfold root_shown, root_evaluates. destruct (apply_binary c (lit "*") (d_lit L 2 0) (d_lit L 31415926535897932384626433833 28) tt) as [[p|k|] []]; try discriminate.
  destruct (apply_function c (lit "sqrt") [p] tt) as [[r|k|] []] eqn:B; try discriminate. intros _. exists p, r. split; [exact eq_refl|exact B].
Qed.
Lemma ref_root : root_evaluates ref_lib ref_ctx tt. Proof. apply root_of_shown. vm_compute. reflexivity. Qed.
(** [0.5!] is 0.886226925452758 (half the square root of pi); [1.5!] is 1.5 times that; [1.00000000000000001!] panics. *)
Example C86_case : exact_decimals ref_lib val /\ good_roots ref_lib val /\ rounds_places ref_lib val /\ root_evaluates ref_lib ref_ctx tt /\
  ref_fact 5 1 = Ok (443113462726379 # 500000000000000)%Q /\ ref_fact 100000000000000001 17 = Panic /\ (exists q, ref_fact 15 1 = Ok q /\ (13293403881 # 10000000000 < q < 13293403882 # 10000000000)%Q).
Proof.
  split; [exact ref_exact|]. split; [exact ref_roots|]. split; [exact ref_places|]. split; [exact ref_root|]. split; [vm_compute; reflexivity|]. split; [vm_compute; reflexivity|]. eexists. split; [vm_compute; reflexivity|split; reflexivity].
Qed.
