(** * The arctangent in decimal contexts (C75)

    The theorems hold for every decimal library whose arithmetic is as documented (SpecDecimal.exact_decimals). [Ratan.atan],
    [cos], [sin] and [PI] are those of the real numbers of Coq's standard library. *)
From Coq Require Import List NArith ZArith QArith Qabs Qround Qreals Reals Bool Lia Lra String.
From Verif Require Import ModelBase ModelContext ModelEvaluator ModelText ModelDefault ModelFloat ModelNum ModelOps ModelStd ModelDecimal
  SpecText SpecExpr SpecTokens SpecOps SpecDecimal ProofText ProofDefault ProofRpn ProofTokens2 ProofBuild ProofCtx ProofWf ProofOps3 ProofDecRef ProofDecimal ProofDecimal2 ProofDecTrig ProofDecFun ProofDecFun2 PropDecimal PropDecimal2
  ProofReals ProofAtan ProofDecReal ProofDecReal2 ProofDecAtan.
Import ListNotations.
Local Open Scope R_scope.

Section Calls.
Context {D W : Type}.
Variable L : dlib D.
Variable fuel : nat.
Variable rnd : W -> f64 * W.
Variable E : env.
Variable dbg : bool.
Variable cf : config.
Variable d : dctx D W.
Hypothesis Hd : decimal_context L fuel rnd E dbg cf = Ok d.
Lemma atan_is x w : apply_function (to_ctx E d) (lit "atan") [x] w = (or_over (ModelDecimal.atan L fuel x), w).
Proof. unfold apply_function. fn 25%nat (@x_atan D W L fuel) "atan"%string. reflexivity. Qed.
Lemma acot_is x w : apply_function (to_ctx E d) (lit "acot") [x] w = (or_over (ModelDecimal.atan L fuel x), w).
Proof. unfold apply_function. fn 28%nat (@arc_rec D W "acot"%string (ModelDecimal.atan L fuel)) "acot"%string. reflexivity. Qed.
Lemma atan2_is y x w : apply_function (to_ctx E d) (lit "atan") [y; x] w = (or_over (ModelDecimal.atan2 L fuel y x), w).
Proof. unfold apply_function. fn 25%nat (@x_atan D W L fuel) "atan"%string. reflexivity. Qed.
End Calls.

(** ** One argument: every decimal *)
Theorem C75_atan : forall D W (L : dlib D) value, exact_decimals L value -> forall fuel (rnd : W -> f64 * W) E dbg cf d, decimal_context L fuel rnd E dbg cf = Ok d ->
  forall x w, (1 <= fuel)%nat ->
  exists y, apply_function (to_ctx E d) (lit "atan") [x] w = (Ok y, w) /\ Rabs (Q2R (value y) - Ratan.atan (Q2R (value x))) <= 2 / 10 ^ 16.
Proof.
  intros D W L value EX fuel rnd E dbg cf d Hd x w Hf. rewrite (atan_is L fuel rnd E dbg cf d Hd). destruct (atan_near L value EX x fuel Hf) as (y & Y1 & Y2). exists y. unfold ModelDecimal.atan. rewrite Y1. split; [reflexivity|].
  change (Q2R (value y)) with (ProofDecReal.v value y). change (Q2R (value x)) with (ProofDecReal.v value x). lra.
Qed.
Print Assumptions C75_atan.

(** ** [acot] is the arctangent too, so it is not near any angle whose cotangent is [x], except around 1 and -1. *)
Lemma not_acot x y t : (Rabs x <= / 2 \/ 2 <= Rabs x) -> Rabs (y - Ratan.atan x) <= / 10 ^ 15 -> cos t = x * sin t -> / 2 <= Rabs (y - t).
Proof.
  intros Hx Hy Ht. destruct (Rle_dec (/ 2) (Rabs (y - t))) as [G|G]; [exact G|]. exfalso. set (z := Ratan.atan x) in *. assert (Z : cos (t + z) = 0).
  { rewrite cos_plus, Ht. unfold z. rewrite cos_atan, sin_atan. unfold Rdiv. ring. }
  assert (T : Rabs (t - z) <= 0.501). { replace (t - z) with (- (y - t) + (y - z)) by ring. eapply Rle_trans; [apply Rabs_triang|]. rewrite Rabs_Ropp. lra. }
  apply Rabs_def2' in T. pose proof PI2_3_2 as P. unfold PI2 in P. pose proof (PI2_1) as _. assert (P2 : 3.14 <= PI). { pose proof pi_b as Q. apply Rabs_def2' in Q. lra. }
  destruct Hx as [Hx|Hx].
  - assert (A : Rabs z <= / 2). { unfold z. pose proof (atan_lip x 0) as Q. rewrite atan_0, !Rminus_0_r in Q. lra. } apply Rabs_def2' in A. assert (0 < cos (t + z)) by (apply cos_gt_0; lra). lra.
  - assert (B : forall x, 2 <= x -> PI / 2 - / 2 <= Ratan.atan x < PI / 2).
    { clear. intros x Hx. pose proof (atan_bound x) as B. split; [|lra]. pose proof (atan_inv_pos x ltac:(lra)) as I. pose proof (atan_lip (/ x) 0) as Q. rewrite atan_0, !Rminus_0_r in Q.
      assert (J : 0 < / x <= / 2) by (split; [apply Rinv_0_lt_compat; lra|apply Rinv_le_contravar; lra]). rewrite (Rabs_pos_eq (/ x)) in Q by lra. apply Rabs_def2' in Q. lra. }
    destruct (Rle_dec 0 x) as [S0|S0].
    + rewrite Rabs_pos_eq in Hx by lra. specialize (B x Hx). fold z in B. assert (cos (t + z) < 0) by (apply cos_lt_0; lra). lra.
    + rewrite Rabs_left in Hx by lra. specialize (B (- x) Hx). rewrite atan_opp in B. fold z in B. assert (cos (- (t + z)) < 0) by (apply cos_lt_0; lra). rewrite cos_neg in H. lra.
Qed.
Theorem C75_acot_refuted : forall D W (L : dlib D) value, exact_decimals L value -> forall fuel (rnd : W -> f64 * W) E dbg cf d, decimal_context L fuel rnd E dbg cf = Ok d ->
  forall x w, (1 <= fuel)%nat -> let X := Q2R (value x) in
  exists y, apply_function (to_ctx E d) (lit "acot") [x] w = (Ok y, w) /\ Rabs (Q2R (value y) - Ratan.atan X) <= 2 / 10 ^ 16 /\
    ((Rabs X <= / 2 \/ 2 <= Rabs X) -> forall t, cos t = X * sin t -> / 2 <= Rabs (Q2R (value y) - t)).
Proof.
  intros D W L value EX fuel rnd E dbg cf d Hd x w Hf X. rewrite (acot_is L fuel rnd E dbg cf d Hd). destruct (atan_near L value EX x fuel Hf) as (y & Y1 & Y2). exists y. unfold ModelDecimal.atan. rewrite Y1. split; [reflexivity|].
  change (Q2R (value y)) with (ProofDecReal.v value y). change (ProofDecReal.v value x) with X in Y2. split; [lra|]. intros Hx t Ht. apply (not_acot X); [exact Hx|lra|exact Ht].
Qed.
Print Assumptions C75_acot_refuted.

(** ** Two arguments: the angle of the point (x, y) *)
Definition angle (x y t : R) : Prop := - PI < t <= PI /\ x = sqrt (x * x + y * y) * cos t /\ y = sqrt (x * x + y * y) * sin t.
Lemma angle_pos x y : 0 < x -> angle x y (Ratan.atan (y / x)).
Proof.
  intros H. pose proof (atan_bound (y / x)) as B. pose proof PI_RGT_0. split; [lra|]. rewrite cos_atan, sin_atan. unfold Rsqr.
  assert (S1 : sqrt (x * x + y * y) = x * sqrt (1 + y / x * (y / x))). { replace (x * x + y * y) with (x * x * (1 + y / x * (y / x))) by (field; lra). rewrite sqrt_mult_alt by nra. rewrite sqrt_square by lra. reflexivity. }
  rewrite S1. assert (P : 0 < sqrt (1 + y / x * (y / x))) by (apply sqrt_lt_R0; pose proof (Rle_0_sqr (y / x)) as Q; unfold Rsqr in Q; lra). split; field; lra.
Qed.
Lemma angle_neg x y t : x < 0 -> - PI < t <= PI -> (t = Ratan.atan (y / x) + PI \/ t = Ratan.atan (y / x) - PI) -> angle x y t.
Proof.
  intros H B T. split; [exact B|]. destruct (angle_pos (- x) (- y)) as (_ & C1 & C2); [lra|]. replace (- y / - x) with (y / x) in * by (field; lra). replace (- x * - x + - y * - y) with (x * x + y * y) in * by ring.
  assert (C : cos t = - cos (Ratan.atan (y / x)) /\ sin t = - sin (Ratan.atan (y / x))). { destruct T as [->| ->]; [rewrite neg_cos, neg_sin; split; reflexivity|]. unfold Rminus. rewrite cos_plus, sin_plus, cos_neg, sin_neg, cos_PI, sin_PI. split; ring. }
  destruct C as [-> ->]. split; lra.
Qed.
Lemma rounded_quotient q p : Rabs (q - p) <= / 10 ^ 28 + Rabs p * / 10 ^ 27 -> Rabs (Ratan.atan q - Ratan.atan p) <= / 10 ^ 20.
Proof.
  assert (Pos : forall q p, 0 <= p -> Rabs (q - p) <= / 10 ^ 28 + p * / 10 ^ 27 -> Rabs (Ratan.atan q - Ratan.atan p) <= / 10 ^ 20).
  { clear. intros q p Hp H. destruct (Rle_dec p 100000) as [B|B].
    - eapply Rle_trans; [apply atan_lip|]. lra.
    - pose proof (Rabs_def2' _ _ H) as H'. assert (Hq : p / 2 <= q) by lra. pose proof (atan_inv_pos p ltac:(lra)) as I1. pose proof (atan_inv_pos q ltac:(lra)) as I2.
      replace (Ratan.atan q - Ratan.atan p) with (- (Ratan.atan (/ q) - Ratan.atan (/ p))) by lra. rewrite Rabs_Ropp. eapply Rle_trans; [apply atan_lip|].
      assert (J1 : 0 < / q <= / 50000) by (split; [apply Rinv_0_lt_compat; lra|apply Rinv_le_contravar; lra]). assert (J2 : 0 < / p <= / 50000) by (split; [apply Rinv_0_lt_compat; lra|apply Rinv_le_contravar; lra]).
      replace (/ q - / p) with ((p - q) * / p * / q) by (field; lra). rewrite !Rabs_mult, (Rabs_pos_eq (/ p)), (Rabs_pos_eq (/ q)), (Rabs_minus_sym p q) by lra.
      assert (K : Rabs (q - p) * / p <= 2 * / 10 ^ 27). { apply Rmult_le_reg_r with p; [lra|]. rewrite Rmult_assoc, Rinv_l by lra. lra. }
      assert (Rabs (q - p) * / p * / q <= 2 * / 10 ^ 27 * / 50000) by (apply Rmult_le_compat; try lra; apply Rmult_le_pos; [apply Rabs_pos|lra]). lra. }
  intros H. destruct (Rle_dec 0 p) as [S0|S0]; [apply Pos; [exact S0|rewrite (Rabs_pos_eq p) in H by lra; exact H]|].
  replace (Ratan.atan q - Ratan.atan p) with (- (Ratan.atan (- q) - Ratan.atan (- p))) by (rewrite !atan_opp; ring). rewrite Rabs_Ropp. apply Pos; [lra|]. rewrite (Rabs_left p) in H by lra. replace (- q - - p) with (- (q - p)) by ring. rewrite Rabs_Ropp. exact H.
Qed.
Theorem C75_atan_of_a_point : forall D W (L : dlib D) value, exact_decimals L value -> forall fuel (rnd : W -> f64 * W) E dbg cf d, decimal_context L fuel rnd E dbg cf = Ok d ->
  forall y x w, (1 <= fuel)%nat -> ~ (value x == 0)%Q -> (Qabs (value y / value x) <= inject_Z (10 ^ 28))%Q ->
  exists r t, apply_function (to_ctx E d) (lit "atan") [y; x] w = (Ok r, w) /\ angle (Q2R (value x)) (Q2R (value y)) t /\ Rabs (Q2R (value r) - t) <= 2 / 10 ^ 16.
Proof.
  intros D W L value EX fuel rnd E dbg cf d Hd y x w Hf Hx Hq. rewrite (atan2_is L fuel rnd E dbg cf d Hd). unfold ModelDecimal.atan2. pose proof (v_zero L value EX) as V0. set (v := ProofDecReal.v value) in *.
  apply Qle_Rle in Hq. rewrite Q2R_abs, Q2R_int, Q2R_div in Hq by exact Hx. change (Rabs (v y / v x) <= IZR (10 ^ 28)) in Hq. assert (Hq' : Rabs (v y / v x) <= 10 ^ 28) by (rewrite pow_IZR; exact Hq). clear Hq.
  assert (X0 : v x <> 0). { intros Q. apply Hx, eqR_Qeq. rewrite Q2R_0. exact Q. } change (Q2R (value x)) with (v x). change (Q2R (value y)) with (v y).
  assert (I0 : is_zero L x = false). { destruct (is_zero L x) eqn:I; [|reflexivity]. apply (is_zero_iff L value EX) in I. contradiction. }
  rewrite I0, andb_false_r. destruct (near_rel value _ _ (ed_div _ _ EX y x Hx)) as (q & Q1 & Q2); [rewrite Q2R_div by exact Hx; exact Hq'|]. rewrite Q2R_div in Q2 by exact Hx. change (Rabs (v q - v y / v x) <= / 10 ^ 28 + Rabs (v y / v x) * / 10 ^ 27) in Q2.
  unfold d_div. rewrite Q1. cbn [must]. destruct (atan_near L value EX q fuel Hf) as (a & A1 & A2). unfold ModelDecimal.atan. rewrite A1. cbn [ModelDecimal.call]. fold v in A2.
  pose proof (rounded_quotient _ _ Q2) as RQ. set (p := v y / v x) in *. pose proof (atan_bound p) as AB. pose proof PI_4 as P4. pose proof PI_RGT_0 as P0.
  assert (AP : Rabs (v a - Ratan.atan p) <= 1.3 * / 10 ^ 16). { replace (v a - Ratan.atan p) with ((v a - Ratan.atan (v q)) + (Ratan.atan (v q) - Ratan.atan p)) by ring. eapply Rle_trans; [apply Rabs_triang|]. lra. }
  pose proof (Rabs_def2' _ _ AP) as AP'. pose proof pi_b as PB. assert (VP : v (cPI L) = IZR 31415926535897932384626433833 / 10 ^ 28) by (apply (v_lit28 L value EX); reflexivity). rewrite <- VP in PB. pose proof (Rabs_def2' _ _ PB) as PB'.
  destruct (d_gt L x (ZERO L)) eqn:G.
  - apply (d_gt_iff L value EX), Qlt_Rlt in G. change (v (ZERO L) < v x) in G. rewrite V0 in G. exists a, (Ratan.atan p). split; [reflexivity|]. split; [apply angle_pos, G|change (Q2R (value a)) with (v a); lra].
  - apply (d_gt_false L value EX), Qle_Rle in G. change (v x <= v (ZERO L)) in G. rewrite V0 in G. assert (XN : v x < 0) by lra. assert (PX : v y = p * v x) by (unfold p; field; lra).
    destruct (d_lt L y (ZERO L)) eqn:Y.
    + apply (v_lt L value EX) in Y. fold v in Y. rewrite V0 in Y. cbn [negb]. assert (PP : 0 < p) by (rewrite PX in Y; nra). pose proof (atan_pos p PP).
      destruct (sub26 L value EX a (cPI L)) as (r & R1 & R2); [fold v; apply Rabs_le; lra|]. fold v in R2. rewrite R1. cbn [must]. exists r, (Ratan.atan p - PI). split; [reflexivity|]. split; [apply angle_neg; [exact XN|lra|right; reflexivity]|].
      change (Q2R (value r)) with (v r). replace (v r - (Ratan.atan p - PI)) with ((v r - (v a - v (cPI L))) + ((v a - Ratan.atan p) + (PI - v (cPI L)))) by ring. eapply Rle_trans; [apply Rabs_triang|]. pose proof (Rabs_triang (v a - Ratan.atan p) (PI - v (cPI L))). lra.
    + apply (v_lt_f L value EX) in Y. fold v in Y. rewrite V0 in Y. cbn [negb]. assert (PP : p <= 0). { destruct (Rle_dec p 0); [assumption|]. exfalso. assert (p * v x < 0) by nra. lra. }
      assert (AN : Ratan.atan p <= 0). { destruct PP as [PP| ->]; [|rewrite atan_0; lra]. rewrite <- atan_0. left. apply atan_increasing, PP. }
      destruct (add26 L value EX a (cPI L)) as (r & R1 & R2); [fold v; apply Rabs_le; lra|]. fold v in R2. rewrite R1. cbn [must]. exists r, (Ratan.atan p + PI). split; [reflexivity|]. split; [apply angle_neg; [exact XN|lra|left; reflexivity]|].
      change (Q2R (value r)) with (v r). replace (v r - (Ratan.atan p + PI)) with ((v r - (v a + v (cPI L))) + ((v a - Ratan.atan p) + - (PI - v (cPI L)))) by ring. eapply Rle_trans; [apply Rabs_triang|]. pose proof (Rabs_triang (v a - Ratan.atan p) (- (PI - v (cPI L)))) as T. rewrite Rabs_Ropp in T. lra.
Qed.
Print Assumptions C75_atan_of_a_point.

(** ** Cases *)
Example C75_case : (exists q, ref_fun "atan" [num 1 0] = Ok q /\ (785398163 # 1000000000 < q < 785398164 # 1000000000)%Q) /\ (exists q, ref_fun "atan" [num 3 0; num (-4) 0] = Ok q /\ (249809 # 100000 < q < 249810 # 100000)%Q) /\
  (Qabs (val (num 3 0) / val (num (-4) 0)) <= inject_Z (10 ^ 28))%Q /\ ~ (val (num (-4) 0) == 0)%Q /\ (exists q, ref_fun "acot" [num 0 0] = Ok q /\ (q == 0)%Q) /\ Rabs (Q2R (val (num 0 0))) <= / 2.
Proof.
  split; [eexists; split; [vm_compute; reflexivity|split; vm_compute; reflexivity]|]. split; [eexists; split; [vm_compute; reflexivity|split; vm_compute; reflexivity]|]. split; [vm_compute; discriminate|]. split; [vm_compute; discriminate|].
  split; [eexists; split; [vm_compute; reflexivity|vm_compute; reflexivity]|]. replace (val (num 0 0)) with (inject_Z 0) by (vm_compute; reflexivity). rewrite Q2R_int, Rabs_R0. lra.
Qed.
