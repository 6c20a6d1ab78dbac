(** * Decimal factorials of fractions: Lanczos' sum and formula (for PropDecGamma.v) *)
From Coq Require Import List NArith ZArith QArith Qabs Qround Qreals Reals Bool Lia Lra String.
From Verif Require Import ModelBase ModelContext ModelText ModelDefault ModelFloat ModelNum ModelOps ModelDecimal
  SpecText SpecExpr SpecOps SpecDecimal SpecRoots SpecGamma SpecDecGamma ProofText ProofDefault ProofBuild ProofCtx ProofDecRef ProofDecimal ProofDecimal2 ProofDecTrig ProofDecFun ProofDecFun2 PropDecimal
  ProofReals ProofLn ProofExp ProofGamma ProofDecReal ProofDecReal2 ProofDecLn ProofDecExp PropExp ProofDecAtan ProofDecCbrt ProofDecRoot ProofDecArc ProofDecFactor PropGamma.
Import ListNotations.
Local Open Scope R_scope.
Local Notation falling := SpecGamma.falling.

(** ** The real formula *)
Lemma formula_comp p q : (p == q)%Q -> decimal_formula p = decimal_formula q.
Proof.
  intros E. unfold decimal_formula. rewrite (Qeq_eqR _ _ E). assert (F : Q2R (decimal_factor p) = Q2R (decimal_factor q)) by (apply Qeq_eqR; unfold decimal_factor; rewrite (fractions_comp p q E); reflexivity). rewrite F. reflexivity.
Qed.
Lemma range_parts q : - / 2 <= Q2R q <= 1 -> 4.74 <= t_of q <= 6.25 /\ 1 <= Rpower (t_of q) (Q2R q + / 2) <= 16 /\ / 2187 <= exp (- t_of q) <= 1 /\ 12 <= Q2R (decimal_factor q) <= 90.
Proof.
  intros U. assert (F : (12 <= decimal_factor q <= 90)%Q). { apply decimal_factor_range. split; apply Rle_Qle; [apply Rle_trans with (- / 2); [rewrite Q2R_opp; qnum|lra]|apply Rle_trans with 1; [lra|qnum]]. }
  apply Q2R_in in F. replace (Q2R 12) with 12 in F by qnum. replace (Q2R 90) with 90 in F by qnum.
  assert (T : 4.74 <= t_of q <= 6.25) by (unfold t_of; lra). split; [exact T|]. split; [|split; [|lra]].
  - split.
    + rewrite <- (Rpower_O (t_of q)) by lra. apply Rle_Rpower; lra.
    + apply Rle_trans with (Rpower 6.25 (Q2R q + / 2)); [apply Rle_Rpower_l; lra|]. apply Rle_trans with (Rpower 6.25 (/ 2 * INR 3)); [apply Rle_Rpower; cbn; lra|].
      rewrite <- Rpower_mult, Rpower_sqrt by lra. replace 6.25 with (2.5 * 2.5) by lra. rewrite sqrt_square by lra. rewrite Rpower_pow by lra. cbn. lra.
  - split.
    + rewrite exp_Ropp. apply Rinv_le_contravar; [apply exp_pos|]. apply Rle_trans with (exp (INR 7)); [apply Rlt_le, exp_increasing; cbn; lra|].
      rewrite <- (Rmult_1_r (INR 7)). rewrite <- Rpower_pow_exp. pose proof exp_le_3 as E3. pose proof (exp_pos 1). apply Rle_trans with (3 ^ 7); [apply pow_incr; lra|lra].
    + rewrite <- exp_0. apply Rlt_le, exp_increasing. lra.
Qed.
Lemma decimal_formula_range q : - / 2 <= Q2R q <= 1 -> / 100 <= decimal_formula q <= 3700.
Proof.
  intros Hq. destruct (range_parts q Hq) as (TR & PR & ER & FR). pose proof two_pi as KR. change (decimal_formula q) with (sqrt (2 * PI) * Rpower (t_of q) (Q2R q + / 2) * exp (- t_of q) * Q2R (decimal_factor q)).
  pose proof (product3 _ _ 2.5 2.52 1 16 ltac:(lra) ltac:(lra) KR PR) as R1. pose proof (product3 _ _ (2.5 * 1) (2.52 * 16) (/ 2187) 1 ltac:(lra) ltac:(lra) R1 ER) as R2. pose proof (product3 _ _ (2.5 * 1 * / 2187) (2.52 * 16 * 1) 12 90 ltac:(lra) ltac:(lra) R2 FR) as R3. lra.
Qed.
Lemma power_shift a a' b b' : 4 <= a <= 7 -> 4 <= a' <= 7 -> - 1 <= b <= 2 -> Rabs (a' - a) <= / 10 ^ 23 -> Rabs (b' - b) <= / 10 ^ 23 -> near (/ 10 ^ 20) (Rpower a' b') (Rpower a b).
Proof.
  intros Ha Ha' Hb A B. unfold Rpower. apply near_weak with (2 * (1 / 10 ^ 21)); [lra|apply exp_pos|]. apply exp_close; [lra|].
  replace (b' * ln a' - b * ln a) with ((b' - b) * ln a' + b * (ln a' - ln a)) by ring. pose proof (ln_lip a' a 1 ltac:(lra) ltac:(lra) ltac:(lra)) as L. pose proof (ln_sub a' ltac:(lra)) as L6.
  assert (L0 : 0 <= ln a') by (rewrite <- ln_1; apply Rlt_le, ln_increasing; lra). assert (Bb : Rabs b <= 2) by (apply Rabs_le; lra).
  pose proof (Rabs_triang ((b' - b) * ln a') (b * (ln a' - ln a))) as T. rewrite !Rabs_mult, (Rabs_pos_eq (ln a')) in T by lra.
  assert (Rabs (b' - b) * ln a' <= / 10 ^ 23 * 6) by (apply Rmult_le_compat; try apply Rabs_pos; lra). assert (Rabs b * Rabs (ln a' - ln a) <= 2 * (/ 10 ^ 23)) by (apply Rmult_le_compat; try apply Rabs_pos; lra). lra.
Qed.

(** ** The sum *)
Section Real.
Context {D : Type}.
Variable L : dlib D.
Variable value : D -> Q.
Hypothesis EX : exact_decimals L value.
Notation v := (ProofDecReal.v value).

Lemma quotient_near (x C : D) (c : Q) (n : Z) : - / 2 <= v x <= 1 -> v C = Q2R c -> Rabs (Q2R c) <= 60 -> (1 <= n <= 14)%Z ->
  exists s t, d_add L x (int L n) = Some s /\ d_div L C s = Some t /\ Rabs (v t - Q2R (c / (value x + inject_Z n))) <= 3 / 10 ^ 24 /\ Rabs (Q2R (c / (value x + inject_Z n))) <= 120.
Proof.
  intros Hx HC Hc Hn. assert (Vn : v (int L n) = IZR n) by (apply (v_int L value EX); rewrite limit_val; lia). assert (N : 1 <= IZR n <= 14) by (split; apply IZR_le; lia).
  destruct (near26 value _ _ (ed_add _ _ EX x (int L n))) as (s & S1 & S2); [rewrite Q2R_plus; fold (v x) (v (int L n)); rewrite Vn; apply Rabs_le; lra|].
  rewrite Q2R_plus in S2. fold (v x) (v (int L n)) in S2. rewrite Vn in S2. exists s. unfold d_add. rewrite S1.
  assert (E : Q2R (c / (value x + inject_Z n)) = Q2R c / (v x + IZR n)). { assert (Z : Q2R (value x + inject_Z n) = v x + IZR n) by (rewrite Q2R_plus, Q2R_int; reflexivity). rewrite Q2R_div; [rewrite Z; reflexivity|]. intros K. apply Qeq_eqR in K. rewrite Z, Q2R_0 in K. lra. }
  rewrite E. clear E. set (w := v x + IZR n) in *. assert (W : / 2 <= w <= 15) by (unfold w; lra). clearbody w. clear Vn N Hn.
  pose proof (Rabs_le_inv _ _ S2) as S3. assert (Sr : 0.49 <= v s <= 16) by lra. set (c' := Q2R c) in *. clearbody c'. assert (Cb : - 60 <= c' <= 60) by (apply Rabs_le_inv; exact Hc).
  assert (Iw : 0 < / w <= 2) by (split; [apply Rinv_0_lt_compat; lra|rewrite <- (Rinv_inv 2); apply Rinv_le_contravar; lra]).
  assert (Is : 0 < / v s <= 2.05) by (split; [apply Rinv_0_lt_compat; lra|apply Rle_trans with (/ 0.49); [apply Rinv_le_contravar; lra|lra]]).
  assert (Eq : Q2R (value C / value s) = c' / v s) by (rewrite Q2R_div by (apply v_nz; lra); change (v C / v s = c' / v s); rewrite HC; reflexivity).
  destruct (near26 value _ _ (ed_div _ _ EX C s ltac:(apply v_nz; lra))) as (t & T1 & T2).
  { rewrite Eq. unfold Rdiv. rewrite Rabs_mult, (Rabs_pos_eq (/ v s)) by lra. apply Rle_trans with (60 * 2.05); [|lra]. apply Rmult_le_compat; try apply Rabs_pos; lra. }
  exists t. split; [reflexivity|]. split; [exact T1|]. rewrite Eq in T2. split.
  - replace (v t - c' / w) with ((v t - c' / v s) + c' * (/ v s * / w) * (w - v s)) by (field; lra). eapply Rle_trans; [apply Rabs_triang|]. rewrite !Rabs_mult, (Rabs_pos_eq (/ v s)), (Rabs_pos_eq (/ w)) by lra.
    rewrite Rabs_minus_sym in S2. assert (P : / v s * / w <= 2.05 * 2) by (apply Rmult_le_compat; lra). assert (P0 : 0 <= / v s * / w) by (apply Rmult_le_pos; lra).
    assert (P2 : Rabs c' * (/ v s * / w) <= 60 * (2.05 * 2)) by (apply Rmult_le_compat; try apply Rabs_pos; lra). assert (P3 : Rabs c' * (/ v s * / w) * Rabs (w - v s) <= 60 * (2.05 * 2) * / 10 ^ 26). { apply Rmult_le_compat; [apply Rmult_le_pos; [apply Rabs_pos|lra]|apply Rabs_pos|exact P2|exact S2]. }
    lra.
  - unfold Rdiv. rewrite Rabs_mult, (Rabs_pos_eq (/ w)) by lra. replace 120 with (60 * 2) by lra. apply Rmult_le_compat; try apply Rabs_pos; lra.
Qed.
Lemma sum_near (x : D) : - / 2 <= v x <= 1 -> forall cs Cs n F F0 e, Forall2 (fun c C => v C = Q2R c) cs Cs -> (forall c, In c cs -> Rabs (Q2R c) <= 60) -> (1 <= n)%Z -> (n + Z.of_nat (List.length cs) <= 15)%Z ->
  Rabs (v F - Q2R F0) <= e -> Rabs (v F) <= 10000 - 130 * INR (List.length cs) ->
  exists y, gamma_sum L x n Cs F = Ok (Some y) /\ Rabs (v y - Q2R (F0 + fractions (value x) n cs)) <= e + INR (List.length cs) * (4 / 10 ^ 24).
Proof.
  intros Hx. induction cs as [|c cs IH]; intros Cs n F F0 e H2 Hc Hn Hn2 HF HB; inversion H2 as [|? C ? Cs' RC H2']; subst; cbn [gamma_sum fractions List.length] in *.
  - exists F. split; [reflexivity|]. cbn [INR]. rewrite Q2R_plus, Q2R_0, Rplus_0_r. lra.
  - rewrite S_INR in *. rewrite Nat2Z.inj_succ in Hn2. pose proof (pos_INR (List.length cs)) as L0. set (l := INR (List.length cs)) in *. clearbody l.
    destruct (quotient_near x C c n Hx RC (Hc c (or_introl eq_refl)) ltac:(lia)) as (s & t & S1 & S2 & T1 & T2). rewrite S1. cbn [must]. rewrite S2. cbn [must]. set (w := (c / (value x + inject_Z n))%Q) in *. clearbody w.
    assert (T3 : Rabs (v t) <= 121). { replace (v t) with ((v t - Q2R w) + Q2R w) by ring. eapply Rle_trans; [apply Rabs_triang|]. lra. }
    destruct (near24 value _ _ (ed_add _ _ EX F t)) as (F' & F1 & F2); [rewrite Q2R_plus; fold (v F) (v t); eapply Rle_trans; [apply Rabs_triang|]; lra|].
    rewrite Q2R_plus in F2. fold (v F) (v t) in F2. unfold d_add. rewrite F1. cbn [must].
    destruct (IH Cs' (n + 1)%Z F' (F0 + w)%Q (e + 4 / 10 ^ 24) H2' ltac:(intros; apply Hc; right; assumption) ltac:(lia) ltac:(lia)) as (y & Y1 & Y2).
    + rewrite Q2R_plus. replace (v F' - (Q2R F0 + Q2R w)) with ((v F' - (v F + v t)) + ((v F - Q2R F0) + (v t - Q2R w))) by ring. eapply Rle_trans; [apply Rabs_triang|]. pose proof (Rabs_triang (v F - Q2R F0) (v t - Q2R w)). lra.
    + replace (v F') with ((v F' - (v F + v t)) + (v F + v t)) by ring. eapply Rle_trans; [apply Rabs_triang|]. pose proof (Rabs_triang (v F) (v t)). lra.
    + exists y. split; [exact Y1|]. rewrite (Qeq_eqR _ _ (Qplus_assoc F0 w _)). eapply Rle_trans; [exact Y2|]. lra.
Qed.

(** The literals of the source. *)
Lemma lit_R c s q : (Z.abs c < limit)%Z -> (s <= 28)%N -> (q * inject_Z (10 ^ Z.of_N s) == inject_Z c)%Q -> v (d_lit L c s) = Q2R q.
Proof.
  intros Hc Hs Hq. apply Qeq_eqR. pose proof (ed_literal _ _ EX c s Hc Hs) as H. rewrite <- Hq in H. apply Qmult_inj_r in H; [exact H|].
  intros K. change 0%Q with (inject_Z 0) in K. apply (proj1 (inject_Z_injective _ _)) in K. assert (P10 : (0 < 10 ^ Z.of_N s)%Z) by (apply Z.pow_pos_nonneg; [reflexivity|apply N2Z.is_nonneg]). rewrite K in P10. discriminate.
Qed.
Lemma rest_literals : Forall2 (fun c C => v C = Q2R c) decimal_rest (P_rest L).
Proof. unfold decimal_rest, P_rest. repeat constructor; apply lit_R; try reflexivity; discriminate. Qed.
Lemma first_literal : v (d_lit L 99999999999999709182 20) = Q2R decimal_first.
Proof. apply lit_R; try reflexivity; discriminate. Qed.
Lemma rest_small : forall c, In c decimal_rest -> Rabs (Q2R c) <= 60.
Proof.
  assert (H : forallb (fun c => Qle_bool (Qabs c) 60) decimal_rest = true) by (vm_compute; reflexivity). intros c Hc. rewrite forallb_forall in H. specialize (H c Hc). apply Qle_bool_iff, Qle_Rle in H.
  rewrite Q2R_abs in H. replace (Q2R 60) with 60 in H by qnum. exact H.
Qed.
Lemma factor_near (x : D) : - / 2 <= v x <= 1 -> exists y, gamma_sum L x 1 (P_rest L) (d_lit L 99999999999999709182 20) = Ok (Some y) /\ Rabs (v y - Q2R (decimal_factor (value x))) <= / 10 ^ 22.
Proof.
  intros Hx. assert (V : v (d_lit L 99999999999999709182 20) = 99999999999999709182 / 10 ^ 20) by (rewrite first_literal; unfold decimal_first; qnum).
  destruct (sum_near x Hx decimal_rest (P_rest L) 1 (d_lit L 99999999999999709182 20) decimal_first 0 rest_literals rest_small ltac:(lia) ltac:(cbn; lia)) as (y & Y1 & Y2).
  - rewrite first_literal, Rminus_diag_eq, Rabs_R0 by reflexivity. lra.
  - rewrite V. change (List.length decimal_rest) with 14%nat. cbn [INR]. rewrite Rabs_pos_eq by lra. lra.
  - exists y. split; [exact Y1|]. eapply Rle_trans; [exact Y2|]. change (List.length decimal_rest) with 14%nat. cbn [INR]. lra.
Qed.

(** ** The parts of the formula *)
Lemma mul_near x y : / 10 ^ 9 <= v x * v y <= 10 ^ 28 -> exists z, d_mul L x y = Some z /\ near (/ 10 ^ 18) (v z) (v x * v y).
Proof.
  intros H. destruct (mulr L value EX x y) as (z & A & B); [rewrite Rabs_pos_eq; lra|]. exists z. split; [exact A|]. unfold near. rewrite (Rabs_pos_eq (v x * v y)) in B by lra. rewrite e28_is in B. set (p := v x * v y) in *. clearbody p. eapply Rle_trans; [exact B|]. lra.
Qed.
Lemma less_one x : Rabs (v x - 1) <= 7 -> exists z, d_sub L x (ONE L) = Some z /\ (value z == value x - 1)%Q /\ v z = v x - 1.
Proof.
  intros H. pose proof (one_val L value EX) as V1. destruct (computes_exact value _ _ (ed_sub _ _ EX x (ONE L))) as (z & Z1 & Z2).
  - apply (rep_comp (inject_Z (-1) + inject_Z 1 * value x)); [rewrite V1; unfold inject_Z; ring|]. apply rep_shift; [apply (ed_representable _ _ EX)|auto|]. left. apply Rle_Qle. rewrite Q2R_abs, Q2R_plus, Q2R_mult, !Q2R_int. change (Q2R (value x)) with (v x).
    replace (Q2R 7) with 7 by qnum. replace (-1 + 1 * v x) with (v x - 1) by ring. exact H.
  - exists z. split; [exact Z1|]. rewrite V1 in Z2. split; [exact Z2|]. apply Qeq_eqR in Z2. rewrite Q2R_minus, Q2R_1 in Z2. exact Z2.
Qed.
Lemma v_half : v (HALF L) = / 2. Proof. unfold v. rewrite (Qeq_eqR _ _ (half_val L value EX)). qnum. Qed.
Lemma v_pi : v (cPI L) = 31415926535897932384626433833 / 10 ^ 28.
Proof. unfold v. rewrite (Qeq_eqR _ _ (pi_val L value EX)). unfold pi_28. qnum. Qed.
Lemma add_close x y b : Rabs (v x + v y) <= 100 -> v y = b -> exists z, d_add L x y = Some z /\ Rabs (v z - (v x + b)) <= / 10 ^ 24.
Proof.
  intros H <-. destruct (addr L value EX x y) as (z & A & B); [lra|]. exists z. split; [exact A|]. rewrite e28_is in B. lra.
Qed.
Hypothesis GR : good_roots L value.
Lemma root_near fuel tp a : d_mul L (TWO L) (cPI L) = Some tp -> checked_sqrt L fuel tp = Ok (Some a) -> near (/ 10 ^ 20) (v a) (sqrt (2 * PI)).
Proof.
  intros H1 H2. destruct (mulr L value EX (TWO L) (cPI L)) as (z & A & B). { rewrite (v_two L value EX), v_pi, Rabs_pos_eq; lra. }
  rewrite H1 in A. injection A as <-. rewrite (v_two L value EX), v_pi, e28_is in B. rewrite (Rabs_pos_eq (2 * _)) in B by lra. apply Rabs_le_inv in B. pose proof pi_b as P. apply Rabs_le_inv in P.
  assert (T : Rabs (v tp - 2 * PI) <= / 10 ^ 25) by (apply Rabs_le; lra). apply Rabs_le_inv in T. assert (T6 : 6 <= v tp <= 7) by lra.
  destruct (sqrt_near L value EX GR fuel tp a ltac:(lra) H2) as (S & _ & _). rewrite e28_is in S. pose proof two_pi as K. clear P B.
  pose proof (sqrt_sqrt (v tp) ltac:(lra)) as Q1. pose proof (sqrt_sqrt (2 * PI) ltac:(lra)) as Q2. pose proof (sqrt_pos (v tp)) as Q3. set (r := sqrt (v tp)) in *. set (k := sqrt (2 * PI)) in *. clearbody r k.
  apply Rabs_le_inv in S. assert (R1 : 2 <= r <= 3) by (split; nra).
  assert (E : - / 10 ^ 24 <= r - k <= / 10 ^ 24). { assert (M : - / 10 ^ 25 <= (r - k) * (r + k) <= / 10 ^ 25) by (replace ((r - k) * (r + k)) with (r * r - k * k) by ring; lra). clear - M R1 K. split; nra. }
  apply near_b. lra.
Qed.
Lemma power_part fuel t xh : (40 <= fuel)%nat -> 4.7 <= v t <= 6.3 -> - / 10 ^ 20 <= v xh <= 1.6 -> exists b, checked_powd L fuel t xh = Ok (Some b) /\ near (/ 10 ^ 14) (v b) (Rpower (v t) (v xh)).
Proof.
  intros Hf Ht Hx. assert (LN : 0 <= ln (v t) <= 5.3) by (split; [rewrite <- ln_1; apply Rlt_le, ln_increasing; lra|pose proof (ln_sub (v t) ltac:(lra)); lra]).
  assert (PB : 0.9 <= Rpower (v t) (v xh) <= 64).
  { split.
    - unfold Rpower. apply Rle_trans with (1 + v xh * ln (v t)); [|pose proof (exp_ineq1_le (v xh * ln (v t))); lra]. assert (- (1 / 10 ^ 18) <= v xh * ln (v t)); [|lra]. clear - LN Hx. nra.
    - apply Rle_trans with (Rpower (v t) (INR 2)); [apply Rle_Rpower; cbn; lra|]. rewrite Rpower_pow by lra. cbn [pow]. rewrite Rmult_1_r. apply Rle_trans with (8 * 8); [apply Rmult_le_compat; lra|lra]. }
  destruct (is_integer L xh) eqn:I.
  - apply (is_integer_iff L value EX) in I. destruct I as (n & In). rewrite (pow_integer L value EX fuel t xh n In). pose proof (Qeq_eqR _ _ In) as IR. rewrite Q2R_int in IR. change (v xh = IZR n) in IR.
    assert (N : (n = 0 \/ n = 1)%Z). { assert (-1 < IZR n < 2) as [A B] by lra. apply lt_IZR in A, B. lia. }
    destruct N as [-> | ->]; cbn [Z.leb Z.ltb Z.compare andb Z.opp Z.pow]; unfold checked_powi; cbn [Z.eqb].
    + exists (ONE L). split; [reflexivity|]. rewrite IR, (v_one L value EX), Rpower_O by lra. apply near_b. lra.
    + exists t. split; [reflexivity|]. rewrite IR, Rpower_1 by lra. apply near_b. lra.
  - assert (NI : forall n, ~ (value xh == inject_Z n)%Q). { intros n Hn. assert (T : is_integer L xh = true) by (apply (is_integer_iff L value EX); exists n; exact Hn). congruence. }
    assert (Ab : Rabs (v xh) <= 2) by (apply Rabs_le; lra).
    destruct (power_near L value EX fuel t xh Hf ltac:(lra) NI ltac:(lra)) as (b & B1 & B2).
    { rewrite Rabs_mult, (Rabs_pos_eq (ln (v t))) by lra. apply Rle_trans with (2 * 5.3); [apply Rmult_le_compat; try apply Rabs_pos; lra|lra]. }
    exists b. split; [exact B1|]. unfold near. eapply Rle_trans; [exact B2|]. set (P := Rpower (v t) (v xh)) in *. set (r := Rabs (v xh)) in *. assert (R0 : 0 <= r) by apply Rabs_pos. clearbody P r.
    assert (r * P <= 2 * P) by (apply Rmult_le_compat_r; lra). assert (P * P <= 64 * P) by (apply Rmult_le_compat_r; lra). replace (2 * / 10 ^ 16 * r * P) with (2 * / 10 ^ 16 * (r * P)) by ring. lra.
Qed.
Lemma exp_part t : 4.7 <= v t <= 6.3 -> exists c, checked_exp L (d_neg L t) = Ok (Some c) /\ near (24 / 10 ^ 14) (v c) (exp (- v t)).
Proof.
  intros Ht. destruct (exp_plain L value EX (d_neg L t)) as (c & C1 & C2); [rewrite (v_neg L value EX); lra|]. rewrite (v_neg L value EX) in C2. exists c. split; [exact C1|].
  assert (E : / 2187 <= exp (- v t)). { rewrite exp_Ropp. apply Rinv_le_contravar; [apply exp_pos|]. apply Rle_trans with (exp (INR 7)); [apply Rlt_le, exp_increasing; cbn; lra|]. rewrite <- (Rmult_1_r (INR 7)), <- Rpower_pow_exp. pose proof exp_le_3. pose proof (exp_pos 1). apply Rle_trans with (3 ^ 7); [apply pow_incr; lra|lra]. }
  assert (E1 : exp (- v t) <= 1) by (rewrite <- exp_0; apply Rlt_le, exp_increasing; lra). set (x := exp (- v t)) in *. clearbody x. assert (x * x <= 1 * x) by (apply Rmult_le_compat_r; lra). unfold near. eapply Rle_trans; [exact C2|]. lra.
Qed.

(** ** The sine in the formula below 1/2 *)
Lemma pi_times f : 0 <= v f <= 1 -> exists px, d_mul L (cPI L) f = Some px /\ Rabs (v px - PI * v f) <= / 10 ^ 26.
Proof.
  intros Hf. destruct (mulr L value EX (cPI L) f) as (px & A & B). { rewrite v_pi, Rabs_pos_eq; nra. }
  exists px. split; [exact A|]. pose proof pi_b as P. apply Rabs_le_inv in P. rewrite v_pi, e28_is in B. rewrite (Rabs_pos_eq (_ * _)) in B by nra. apply Rabs_le_inv in B. apply Rabs_le.
  set (c := 31415926535897932384626433833 / 10 ^ 28) in *. assert (c * v f <= 4) by (unfold c; nra). assert (- / 10 ^ 28 <= PI * v f - c * v f <= / 10 ^ 28) by (clear - P Hf; split; nra). lra.
Qed.
Lemma sin_close f px : 0 <= v f <= 1 -> Rabs (v px - PI * v f) <= / 10 ^ 26 -> exists s, checked_sin L px = Ok (Some s) /\ Rabs (v s - sin (PI * v f)) <= 1.2 / 10 ^ 16 /\ (v f <= 2 / 10 ^ 17 -> v s = 0).
Proof.
  intros Hf Hp. destruct (sin_good L value EX px) as (s & S1 & r & G & G2). exists s. split; [exact S1|]. pose proof pi_b as P. apply Rabs_le_inv in P. pose proof (Rabs_le_inv _ _ Hp) as Hp'.
  assert (PF : 0 <= PI * v f <= 4) by (clear - P Hf; split; nra). assert (Pb : Rabs (v px) <= 5) by (apply Rabs_le; lra).
  pose proof (sin_lip (v px) (PI * v f)) as Lp. assert (C : Rabs (sin r - sin (PI * v f)) <= / 10 ^ 25). { replace (sin r - sin (PI * v f)) with ((sin r - sin (v px)) + (sin (v px) - sin (PI * v f))) by ring. eapply Rle_trans; [apply Rabs_triang|]. lra. }
  split.
  - destruct G as [G _]. replace (v s - sin (PI * v f)) with ((v s - sin r) + (sin r - sin (PI * v f))) by ring. eapply Rle_trans; [apply Rabs_triang|]. lra.
  - intros Ht. apply (good_at (v s) (sin r) 0 (7 / 10 ^ 17) G); [|lra]. pose proof (sin_lip (PI * v f) 0) as L0. rewrite sin_0, !Rminus_0_r in L0. rewrite (Rabs_pos_eq (PI * v f)) in L0 by lra. assert (PI * v f <= 3.2 * (2 / 10 ^ 17)) by (apply Rmult_le_compat; lra).
    replace (sin r - 0) with ((sin r - sin (PI * v f)) + sin (PI * v f)) by ring. eapply Rle_trans; [apply Rabs_triang|]. lra.
Qed.
Lemma sin_high f : / 6 <= f <= / 2 -> / 2 <= sin (PI * f) <= 1.
Proof.
  intros H. split; [|apply SIN_bound]. replace (/ 2) with (sin (PI / 6)) at 1 by (rewrite sin_PI6; lra). pose proof PI_RGT_0 as P. destruct (Req_dec (PI / 6) (PI * f)) as [E|N]; [rewrite E; lra|].
  assert (PI * / 6 <= PI * f <= PI * / 2) by (split; apply Rmult_le_compat_l; lra). apply Rlt_le, sin_increasing_1; lra.
Qed.
Lemma gamma_tiny fl depth f : 0 < v f <= 2 / 10 ^ 17 -> gamma_rec L fl depth f = Panic.
Proof.
  intros H. assert (H0 : d_lt L f (HALF L) = true) by (apply (v_lt L value EX); rewrite v_half; lra). destruct depth as [|depth]; cbn [gamma_rec]; rewrite H0; [reflexivity|].
  destruct (pi_times f ltac:(lra)) as (px & -> & P2). cbn [must]. destruct (sin_close f px ltac:(lra) P2) as (s & -> & _ & S0). cbn [ModelDecimal.call]. specialize (S0 ltac:(lra)).
  unfold d_div. rewrite (ed_div_zero _ _ EX); [reflexivity|]. apply eqR_Qeq. rewrite Q2R_0. exact S0.
Qed.

(** ** The loop *)
Lemma falling_last k : forall q, (falling q (S k) == falling q k * (q - inject_Z (Z.of_nat k)))%Q.
Proof.
  induction k as [|k IH]; intros q; [cbn [falling]; change (inject_Z (Z.of_nat 0)) with 0%Q; ring|]. change (falling q (S (S k))) with (q * falling (q - 1) (S k))%Q. rewrite (IH (q - 1)%Q). change (falling q (S k)) with (q * falling (q - 1) k)%Q.
  rewrite Nat2Z.inj_succ. unfold Z.succ. rewrite inject_Z_plus. change (inject_Z 1) with 1%Q. ring.
Qed.
Lemma falling_comp k : forall p q, (p == q)%Q -> (falling p k == falling q k)%Q.
Proof. induction k as [|k IH]; intros p q E; cbn [falling]; [reflexivity|]. rewrite (IH (p - 1)%Q (q - 1)%Q) by (rewrite E; reflexivity). rewrite E. reflexivity. Qed.
Lemma falling_ge_1 k : forall q, (inject_Z (Z.of_nat k) <= q)%Q -> 1 <= Q2R (falling q k).
Proof.
  induction k as [|k IH]; intros q H; cbn [falling]; [rewrite Q2R_1; lra|]. rewrite Nat2Z.inj_succ in H. unfold Z.succ in H. rewrite inject_Z_plus in H. rewrite Q2R_mult. apply Qle_Rle in H. rewrite Q2R_plus, !Q2R_int in H.
  assert (K : 0 <= IZR (Z.of_nat k)) by (apply IZR_le; lia). assert (F : 1 <= Q2R (falling (q - 1) k)). { apply IH. apply Rle_Qle. rewrite Q2R_minus, Q2R_int, Q2R_1. lra. } nra.
Qed.
(** [k] turns of the loop, while the factors are above 1. *)
Lemma loop_steps (f : Q) : 0 < Q2R f < 1 -> forall k j fl r n R, (value n == f + inject_Z (Z.of_nat k))%Q -> (k <= fl)%nat -> 1 <= R -> near (INR j * (2 / 10 ^ 18)) (v r) R -> R * Q2R (falling (value n) k) <= 10 ^ 27 -> (j + k <= 40)%nat ->
  exists r' n', fact_loop L fl r n = fact_loop L (fl - k) r' n' /\ (value n' == f)%Q /\ near (INR (j + k) * (2 / 10 ^ 18)) (v r') (R * Q2R (falling (value n) k)).
Proof.
  intros Hf. induction k as [|k IH]; intros j fl r n R Hn Hk HR Hr HB Hj.
  - exists r, n. rewrite Nat.sub_0_r, Nat.add_0_r. cbn [falling]. rewrite Q2R_1, Rmult_1_r. split; [reflexivity|]. split; [rewrite Hn; change (inject_Z (Z.of_nat 0)) with 0%Q; ring|exact Hr].
  - assert (J : 0 <= INR j /\ INR j + 1 <= 40). { split; [apply pos_INR|]. rewrite <- S_INR. replace 40 with (INR 40) by (rewrite INR_IZR_INZ; reflexivity). apply le_INR. lia. }
    destruct fl as [|fl]; [lia|]. cbn [fact_loop Nat.sub]. pose proof (Qeq_eqR _ _ Hn) as Vn. rewrite Q2R_plus, Q2R_int in Vn. change (v n = Q2R f + IZR (Z.of_nat (S k))) in Vn. rewrite Nat2Z.inj_succ, succ_IZR in Vn.
    assert (K0 : 0 <= IZR (Z.of_nat k)) by (apply IZR_le; lia). assert (N1 : 1 < v n) by lra.
    assert (G : d_gt L n (ZERO L) = true). { rewrite (d_gt_iff L value EX). apply Rlt_Qlt. change (v (ZERO L) < v n). rewrite (v_zero L value EX). lra. } rewrite G.
    destruct (minus_one L value EX n ltac:(lra)) as (m & M1 & M2). assert (Vm : (value m == value n - 1)%Q). { apply eqR_Qeq. rewrite Q2R_minus, Q2R_1. exact M2. }
    change (falling (value n) (S k)) with (value n * falling (value n - 1) k)%Q in *. rewrite <- (Qeq_eqR _ _ (Qmult_comp _ _ (Qeq_refl (value n)) _ _ (falling_comp k _ _ Vm))), Q2R_mult in *. change (Q2R (value n)) with (v n) in *.
    assert (Vm2 : (value m == f + inject_Z (Z.of_nat k))%Q). { rewrite Vm, Hn, Nat2Z.inj_succ. unfold Z.succ. rewrite inject_Z_plus. change (inject_Z 1) with 1%Q. ring. }
    assert (F1 : 1 <= Q2R (falling (value m) k)). { apply falling_ge_1. apply Rle_Qle. rewrite (Qeq_eqR _ _ Vm2), Q2R_plus, Q2R_int. lra. } set (F := Q2R (falling (value m) k)) in *.
    assert (R1 : 1 <= R * v n) by (rewrite <- (Rmult_1_l 1); apply Rmult_le_compat; lra).
    assert (RN : 1 <= R * v n <= 10 ^ 27) by (split; [exact R1|]; apply Rle_trans with (R * v n * F); [rewrite <- (Rmult_1_r (R * v n)) at 1; apply Rmult_le_compat_l; lra|rewrite Rmult_assoc; exact HB]).
    assert (JE : 0 <= INR j * (2 / 10 ^ 18) <= / 2) by (destruct J; split; lra). assert (JE1 : 0 <= INR j * (2 / 10 ^ 18) <= 1) by lra.
    assert (E0 : near 0 (v n) (v n)) by (apply near_b; lra). pose proof (near_mul (INR j * (2 / 10 ^ 18)) 0 (v r) R (v n) (v n) JE1 ltac:(lra) ltac:(lra) ltac:(lra) Hr E0) as M.
    replace (INR j * (2 / 10 ^ 18) + 0 + INR j * (2 / 10 ^ 18) * 0) with (INR j * (2 / 10 ^ 18)) in M by ring.
    pose proof (near_range (INR j * (2 / 10 ^ 18)) (v r * v n) (R * v n) 1 (10 ^ 27) JE ltac:(lra) M RN) as MR.
    destruct (mul_near r n ltac:(lra)) as (r' & -> & R2). rewrite M1.
    destruct (IH (S j) fl r' m (R * v n) Vm2 ltac:(lia) ltac:(lra)) as (r2 & n2 & A & B & C).
    + rewrite S_INR. set (e := INR j) in *. clearbody e. apply near_weak with (/ 10 ^ 18 + e * (2 / 10 ^ 18) + / 10 ^ 18 * (e * (2 / 10 ^ 18))); [lra|lra|]. apply near_trans with (v r * v n); [lra|lra|lra|exact R2|exact M].
    + fold F. rewrite Rmult_assoc. exact HB.
    + lia.
    + exists r2, n2. split; [exact A|]. split; [exact B|]. replace (S j + k)%nat with (j + S k)%nat in C by lia. fold F in C. rewrite Rmult_assoc in C. exact C.
Qed.

(** ** The formula, from 1/2 on *)
Variables tp a : D.
Variable fuel : nat.
Hypothesis E4 : d_mul L (TWO L) (cPI L) = Some tp.
Hypothesis E5 : checked_sqrt L fuel tp = Ok (Some a).
Hypothesis Hfl : (40 <= fuel)%nat.
Lemma gamma_upper depth s : / 2 <= v s <= 2 -> exists y, gamma_rec L fuel depth s = Ok (Some y) /\ near (3 / 10 ^ 13) (v y) (decimal_formula (value s - 1)).
Proof.
  intros Hs. assert (H0 : d_lt L s (HALF L) = false) by (apply (v_lt_f L value EX); rewrite v_half; lra).
  destruct (less_one s ltac:(apply Rabs_le; lra)) as (x & X1 & X2 & X3).
  rewrite <- (formula_comp _ _ X2). set (q := value x) in *. assert (Hx : - / 2 <= v x <= 1) by lra. assert (Hq : - / 2 <= Q2R q <= 1) by exact Hx. destruct (range_parts q Hq) as (TR & PR & ER & FR).
  destruct (factor_near x Hx) as (factor & E1 & F2). fold q in F2.
  assert (VG : v (d_lit L 47421875 7) = 47421875 / 10000000). { rewrite (lit_R 47421875 7 (47421875 # 10000000)); [qnum|reflexivity|discriminate|reflexivity]. }
  destruct (add_close x (d_lit L 47421875 7) _ ltac:(rewrite VG; apply Rabs_le; lra) VG) as (t0 & E2 & Z2).
  pose proof (Rabs_le_inv _ _ Z2) as Z3. destruct (add_close t0 (HALF L) _ ltac:(rewrite v_half; apply Rabs_le; lra) v_half) as (t & E3 & Z4). apply Rabs_le_inv in Z4.
  destruct (add_close x (HALF L) _ ltac:(rewrite v_half; apply Rabs_le; lra) v_half) as (xh & E6 & Z5).
  assert (TT : Rabs (v t - t_of q) <= / 10 ^ 23). { change (t_of q) with (v x + 47421875 / 10000000 + / 2). apply Rabs_le. lra. }
  pose proof (Rabs_le_inv _ _ TT) as T3. pose proof (Rabs_le_inv _ _ Z5) as Z6.
  destruct (power_part fuel t xh Hfl ltac:(lra) ltac:(lra)) as (b & E7 & B2).
  destruct (exp_part t ltac:(lra)) as (c & E9 & C2).
  pose proof (root_near fuel tp a E4 E5) as N0. pose proof two_pi as KR.
  assert (N1 : near (2 / 10 ^ 14) (v b) (Rpower (t_of q) (Q2R q + / 2))).
  { apply near_weak with (/ 10 ^ 14 + / 10 ^ 20 + / 10 ^ 14 * / 10 ^ 20); [lra|lra|]. apply near_trans with (Rpower (v t) (v xh)); [lra|lra|lra|exact B2|]. apply power_shift; [lra|lra|lra|exact TT|]. change (Q2R q) with (v x). lra. }
  assert (N2 : near (25 / 10 ^ 14) (v c) (exp (- t_of q))).
  { apply near_weak with (24 / 10 ^ 14 + 2 * / 10 ^ 23 + 24 / 10 ^ 14 * (2 * / 10 ^ 23)); [lra|lra|]. apply near_trans with (exp (- v t)); [lra|lra|lra|exact C2|]. apply exp_close; [lra|]. replace (- v t - - t_of q) with (- (v t - t_of q)) by ring. rewrite Rabs_Ropp. exact TT. }
  assert (N3 : near (/ 10 ^ 20) (v factor) (Q2R (decimal_factor q))) by (unfold near; lra).
  change (decimal_formula q) with (sqrt (2 * PI) * Rpower (t_of q) (Q2R q + / 2) * exp (- t_of q) * Q2R (decimal_factor q)).
  clear B2 C2 TT T3 Z2 Z3 Z4 Z5 Z6 F2. set (rk := sqrt (2 * PI)) in *. set (rp := Rpower (t_of q) (Q2R q + / 2)) in *. set (re := exp (- t_of q)) in *. set (rf := Q2R (decimal_factor q)) in *. clearbody rk rp re rf. clear TR.
  assert (M1 : near (25 / 10 ^ 15) (v a * v b) (rk * rp)). { apply near_weak with (/ 10 ^ 20 + 2 / 10 ^ 14 + / 10 ^ 20 * (2 / 10 ^ 14)); [lra|apply Rmult_lt_0_compat; lra|]. apply near_mul; [lra|lra|lra|lra|exact N0|exact N1]. }
  pose proof (product3 rk rp 2.5 2.52 1 16 ltac:(lra) ltac:(lra) KR PR) as R1. set (r1 := rk * rp) in *. clearbody r1.
  pose proof (near_range (25 / 10 ^ 15) _ r1 (2.5 * 1) (2.52 * 16) ltac:(lra) ltac:(lra) M1 R1) as G1.
  destruct (mul_near a b ltac:(lra)) as (ab & E8 & Z2).
  assert (M1' : near (3 / 10 ^ 14) (v ab) r1). { apply near_weak with (/ 10 ^ 18 + 25 / 10 ^ 15 + / 10 ^ 18 * (25 / 10 ^ 15)); [lra|lra|]. apply near_trans with (v a * v b); [lra|lra|lra|exact Z2|exact M1]. }
  assert (M2 : near (285 / 10 ^ 15) (v ab * v c) (r1 * re)). { apply near_weak with (3 / 10 ^ 14 + 25 / 10 ^ 14 + 3 / 10 ^ 14 * (25 / 10 ^ 14)); [lra|apply Rmult_lt_0_compat; lra|]. apply near_mul; [lra|lra|lra|lra|exact M1'|exact N2]. }
  pose proof (product3 r1 re (2.5 * 1) (2.52 * 16) (/ 2187) 1 ltac:(lra) ltac:(lra) R1 ER) as R2. set (r2 := r1 * re) in *. clearbody r2.
  pose proof (near_range (285 / 10 ^ 15) _ r2 (2.5 * 1 * / 2187) (2.52 * 16 * 1) ltac:(lra) ltac:(lra) M2 R2) as G2.
  destruct (mul_near ab c ltac:(lra)) as (abc & E10 & Z3).
  assert (M2' : near (29 / 10 ^ 14) (v abc) r2). { apply near_weak with (/ 10 ^ 18 + 285 / 10 ^ 15 + / 10 ^ 18 * (285 / 10 ^ 15)); [lra|lra|]. apply near_trans with (v ab * v c); [lra|lra|lra|exact Z3|exact M2]. }
  assert (M3 : near (295 / 10 ^ 15) (v abc * v factor) (r2 * rf)). { apply near_weak with (29 / 10 ^ 14 + / 10 ^ 20 + 29 / 10 ^ 14 * / 10 ^ 20); [lra|apply Rmult_lt_0_compat; lra|]. apply near_mul; [lra|lra|lra|lra|exact M2'|exact N3]. }
  pose proof (product3 r2 rf (2.5 * 1 * / 2187) (2.52 * 16 * 1) 12 90 ltac:(lra) ltac:(lra) R2 FR) as R3. set (r3 := r2 * rf) in *. clearbody r3.
  pose proof (near_range (295 / 10 ^ 15) _ r3 (2.5 * 1 * / 2187 * 12) (2.52 * 16 * 1 * 90) ltac:(lra) ltac:(lra) M3 R3) as G3.
  destruct (mul_near abc factor ltac:(lra)) as (y & E11 & Z4). exists y. split.
  - destruct depth; cbn [gamma_rec]; rewrite H0, X1; cbn [must]; rewrite E1; cbn [ModelDecimal.call]; rewrite E2; cbn [must]; rewrite E3; cbn [must]; rewrite E4; cbn [must]; rewrite E5; cbn [ModelDecimal.call];
      rewrite E6; cbn [must]; rewrite E7; cbn [ModelDecimal.call]; rewrite E8; cbn [must]; rewrite E9; cbn [ModelDecimal.call]; rewrite E10; cbn [must]; rewrite E11; reflexivity.
  - apply near_weak with (/ 10 ^ 18 + 295 / 10 ^ 15 + / 10 ^ 18 * (295 / 10 ^ 15)); [lra|lra|]. apply near_trans with (v abc * v factor); [lra|lra|lra|exact Z4|exact M3].
Qed.

(** ** The formula, below 1/2 *)
Lemma gamma_lower depth f : (1 <= depth)%nat -> / 6 <= v f < / 2 -> exists y, gamma_rec L fuel depth f = Ok (Some y) /\ near (4 / 10 ^ 13) (v y) (PI / sin (PI * v f) * decimal_formula (- value f)).
Proof.
  intros Hd H. assert (H0 : d_lt L f (HALF L) = true) by (apply (v_lt L value EX); rewrite v_half; lra). destruct depth as [|depth]; [lia|]. cbn [gamma_rec]. rewrite H0.
  destruct (pi_times f ltac:(lra)) as (px & -> & P2). cbn [must]. destruct (sin_close f px ltac:(lra) P2) as (s & -> & S2 & _). cbn [ModelDecimal.call].
  pose proof (sin_high (v f) ltac:(lra)) as SH. set (sn := sin (PI * v f)) in *. apply Rabs_le_inv in S2. clearbody sn. pose proof pi_b as PB. apply Rabs_le_inv in PB.
  assert (Sr : 0.49 <= v s <= 1.1) by lra. assert (Is : 0.9 <= / v s <= 2.05). { split; [apply Rle_trans with (/ 1.1); [lra|apply Rinv_le_contravar; lra]|apply Rle_trans with (/ 0.49); [apply Rinv_le_contravar; lra|lra]]. }
  assert (Iq : 1 <= / sn <= 2). { split; [rewrite <- Rinv_1; apply Rinv_le_contravar; lra|rewrite <- (Rinv_inv 2); apply Rinv_le_contravar; lra]. }
  assert (Qr : 2 <= v (cPI L) / v s <= 7) by (rewrite v_pi; unfold Rdiv at 1 3; split; [apply Rle_trans with (3 * 0.9); [lra|apply Rmult_le_compat; lra]|apply Rle_trans with (3.2 * 2.05); [apply Rmult_le_compat; lra|lra]]).
  destruct (divr L value EX (cPI L) s ltac:(lra) ltac:(rewrite Rabs_pos_eq; lra)) as (qq & -> & Q2). cbn [must]. rewrite e28_is, (Rabs_pos_eq (_ / _)) in Q2 by lra. apply Rabs_le_inv in Q2.
  destruct (one_minus L value EX f ltac:(apply Rabs_le; lra)) as (z & -> & Z2). cbn [must]. destruct (gamma_upper depth z ltac:(lra)) as (g & -> & GU). cbn [ModelDecimal.call].
  assert (VZ : (value z - 1 == - value f)%Q). { apply eqR_Qeq. rewrite Q2R_minus, Q2R_opp, Q2R_1. change (v z - 1 = - v f). lra. } rewrite (formula_comp _ _ VZ) in GU.
  assert (FR : / 100 <= decimal_formula (- value f) <= 3700). { apply decimal_formula_range. rewrite Q2R_opp. change (- / 2 <= - v f <= 1). lra. } set (F := decimal_formula (- value f)) in *. clearbody F.
  assert (NQ : near (/ 10 ^ 15) (v qq) (PI / sn)).
  { assert (D1 : Rabs (v (cPI L) / v s - PI / sn) <= 16 / 10 ^ 16).
    { replace (v (cPI L) / v s - PI / sn) with ((v (cPI L) - PI) * / v s + PI * (/ v s * / sn) * (sn - v s)) by (field; lra). eapply Rle_trans; [apply Rabs_triang|]. rewrite !Rabs_mult, (Rabs_pos_eq PI), (Rabs_pos_eq (/ v s)), (Rabs_pos_eq (/ sn)) by lra.
      assert (A1 : Rabs (v (cPI L) - PI) <= / 10 ^ 27) by (rewrite v_pi; apply Rabs_le; lra). assert (A2 : Rabs (sn - v s) <= 1.2 / 10 ^ 16) by (apply Rabs_le; lra). assert (A3 : 0 <= / v s * / sn <= 2.05 * / sn) by (split; [apply Rmult_le_pos; lra|apply Rmult_le_compat_r; lra]).
      assert (A4 : / v s * / sn <= 2.05 * 2) by (apply Rmult_le_compat; lra). assert (A5 : PI * (/ v s * / sn) <= 3.2 * (2.05 * 2)) by (apply Rmult_le_compat; lra).
      assert (A6 : PI * (/ v s * / sn) * Rabs (sn - v s) <= 3.2 * (2.05 * 2) * (1.2 / 10 ^ 16)) by (apply Rmult_le_compat; [apply Rmult_le_pos; lra|apply Rabs_pos|exact A5|exact A2]).
      assert (A7 : Rabs (v (cPI L) - PI) * / v s <= / 10 ^ 27 * 2.05) by (apply Rmult_le_compat; [apply Rabs_pos|lra|exact A1|lra]). lra. }
    apply Rabs_le_inv in D1. assert (PS : 3.1 <= PI / sn) by (unfold Rdiv; apply Rle_trans with (3.1 * 1); [lra|apply Rmult_le_compat; lra]). apply near_b. set (w := v (cPI L) / v s) in *. set (w' := PI / sn) in *. clearbody w w'. lra. }
  assert (PS : 3.1 <= PI / sn <= 6.4) by (unfold Rdiv; split; [apply Rle_trans with (3.1 * 1); [lra|apply Rmult_le_compat; lra]|apply Rle_trans with (3.2 * 2); [apply Rmult_le_compat; lra|lra]]). set (w := PI / sn) in *. clearbody w.
  assert (M : near (35 / 10 ^ 14) (v qq * v g) (w * F)). { apply near_weak with (/ 10 ^ 15 + 3 / 10 ^ 13 + / 10 ^ 15 * (3 / 10 ^ 13)); [lra|apply Rmult_lt_0_compat; lra|]. apply near_mul; [lra|lra|lra|lra|exact NQ|exact GU]. }
  pose proof (product3 w F 3.1 6.4 (/ 100) 3700 ltac:(lra) ltac:(lra) PS FR) as R. set (r := w * F) in *. clearbody r. pose proof (near_range (35 / 10 ^ 14) _ r (3.1 * / 100) (6.4 * 3700) ltac:(lra) ltac:(lra) M R) as G1.
  destruct (mul_near qq g ltac:(lra)) as (z' & -> & Z3). cbn [must]. exists z'. split; [reflexivity|].
  apply near_weak with (/ 10 ^ 18 + 35 / 10 ^ 14 + / 10 ^ 18 * (35 / 10 ^ 14)); [lra|lra|]. apply near_trans with (v qq * v g); [lra|lra|lra|exact Z3|exact M].
Qed.
End Real.
