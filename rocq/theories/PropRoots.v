(** * The cube root in decimal contexts (C76)

    The theorems hold for every decimal library whose arithmetic is as documented (SpecDecimal.exact_decimals). *)
From Coq Require Import List NArith ZArith QArith Qabs Qround Qreals Reals Bool Lia Lra String.
From Verif Require Import ModelBase ModelContext ModelEvaluator ModelText ModelDefault ModelFloat ModelNum ModelOps ModelStd ModelDecimal
  SpecText SpecExpr SpecTokens SpecOps SpecDecimal ProofText ProofDefault ProofRpn ProofTokens2 ProofBuild ProofCtx ProofWf ProofOps3 ProofDecRef ProofDecimal ProofDecimal2 ProofDecTrig ProofDecFun ProofDecFun2 PropDecimal PropDecimal2
  ProofReals ProofDecReal ProofDecReal2 ProofDecCbrt.
Import ListNotations.
Local Open Scope R_scope.

Section Calls.
Context {D W : Type}.
Variable L : dlib D.
Variable fuel : nat.
Variable rnd : W -> f64 * W.
Variable E : env.
Variable dbg : bool.
Variable cf : config.
Variable d : dctx D W.
Hypothesis Hd : decimal_context L fuel rnd E dbg cf = Ok d.
Lemma cbrt_is x w : apply_function (to_ctx E d) (lit "cbrt") [x] w = (or_over (checked_cbrt L x), w).
Proof. unfold apply_function. fn 5%nat (@fwd_checked D W "cbrt"%string (checked_cbrt L)) "cbrt"%string. reflexivity. Qed.
End Calls.

(** A positive decimal is at least one in the 28th place. *)
Lemma least_decimal D (L : dlib D) value (EX : exact_decimals L value) x : 0 < ProofDecReal.v value x -> / 10 ^ 28 <= ProofDecReal.v value x.
Proof.
  intros H. destruct (ed_representable _ _ EX x) as (c & s & S1 & _ & S2). apply Qeq_eqR in S2. rewrite Q2R_mult, !Q2R_int in S2. set (v := ProofDecReal.v value) in *. change (v x * IZR (10 ^ s) = IZR c) in S2.
  assert (P : 0 < IZR (10 ^ s)) by (apply IZR_lt, Z.pow_pos_nonneg; lia). assert (P2 : IZR (10 ^ s) <= 10 ^ 28). { rewrite (pow_IZR 10 28). apply IZR_le. change (10 ^ Z.of_nat 28)%Z with (10 ^ 28)%Z. apply Z.pow_le_mono_r; lia. }
  assert (C : 0 < IZR c) by (rewrite <- S2; apply Rmult_lt_0_compat; assumption). apply lt_IZR in C. assert (C2 : 1 <= IZR c) by (apply IZR_le; lia).
  assert (v x * IZR (10 ^ s) <= v x * 10 ^ 28) by (apply Rmult_le_compat_l; lra). apply Rmult_le_reg_r with (10 ^ 28); [apply pow_lt; lra|]. rewrite Rinv_l by (apply pow_nonzero; lra). lra.
Qed.
Lemma cube_le a b : 0 <= a -> a * a * a <= b * b * b -> a <= b.
Proof.
  intros A H. destruct (Rle_dec a b) as [G|G]; [exact G|]. exfalso. assert (b < a) by lra. assert (0 < a) by (destruct A as [A|A]; [exact A|subst a; assert (b * b * b < 0) by (assert (0 < b * b) by nra; nra); lra]).
  destruct (Rle_dec b 0) as [B|B].
  - assert (0 <= b * b) by nra. assert (b * b * b <= 0) by nra. assert (0 < a * a) by nra. assert (0 < a * a * a) by nra. lra.
  - assert (b * b < a * a) by (apply Rmult_le_0_lt_compat; lra). assert (b * b * b < a * a * a) by (apply Rmult_le_0_lt_compat; nra). lra.
Qed.

(** ** Positive numbers up to 10^14: close to the real cube root [c] *)
Theorem C76_cbrt : forall D W (L : dlib D) value, exact_decimals L value -> forall fuel (rnd : W -> f64 * W) E dbg cf d, decimal_context L fuel rnd E dbg cf = Ok d ->
  forall x w c, (value x <= inject_Z (10 ^ 14))%Q -> 0 < c -> c * c * c = Q2R (value x) ->
  exists y, apply_function (to_ctx E d) (lit "cbrt") [x] w = (Ok y, w) /\ Rabs (Q2R (value y) - c) <= (4 + / c + 60 * c) / 10 ^ 28.
Proof.
  intros D W L value EX fuel rnd E dbg cf d Hd x w c Hx Hc HX. rewrite (cbrt_is L fuel rnd E dbg cf d Hd). unfold checked_cbrt. apply Qle_Rle in Hx. rewrite Q2R_int in Hx. change (Q2R (value x)) with (ProofDecReal.v value x) in *.
  set (v := ProofDecReal.v value) in *. assert (Hm : c * c * c <= 10 ^ 14). { rewrite HX, pow_IZR. exact Hx. } clear Hx.
  assert (J0 : 0 < / c) by (apply Rinv_0_lt_compat, Hc). destruct (is_one L x) eqn:I.
  - exists x. split; [reflexivity|]. apply (is_one_iff L value EX) in I. apply Qeq_eqR in I. change (Q2R (value x)) with (v x) in *. rewrite I, Q2R_1 in *. assert (A : c <= 1) by (apply cube_le; lra). assert (B : 1 <= c) by (apply cube_le; lra).
    replace (1 - c) with 0 by lra. rewrite Rabs_R0. unfold Rdiv. apply Rmult_le_pos; [lra|]. left. apply Rinv_0_lt_compat, pow_lt. lra.
  - assert (P : 0 < v x) by (rewrite <- HX; apply Rmult_lt_0_compat; [apply Rmult_lt_0_compat|]; exact Hc). pose proof (least_decimal D L value EX x P) as LD. fold v in LD. rewrite <- HX in LD.
    assert (R : 4 * / 10 ^ 10 <= c <= 100000) by (split; apply cube_le; lra). destruct (cbrt_near L value EX x c R (eq_sym HX) Hm) as (y & Y1 & Y2). fold v in Y2. unfold checked_cbrt in Y1. rewrite Y1. exists y. split; [reflexivity|].
    change (Q2R (value y)) with (v y). rewrite e28_is in Y2. lra.
Qed.
Print Assumptions C76_cbrt.

(** ** Outside that range it fails: for -2, although -2 has a cube root, and from 8.5 * 10^14 on *)
Theorem C76_cbrt_refuted : forall D W (L : dlib D) value, exact_decimals L value -> forall fuel (rnd : W -> f64 * W) E dbg cf d, decimal_context L fuel rnd E dbg cf = Ok d ->
  forall x w, (value x == -2 \/ inject_Z (85 * 10 ^ 13) <= value x <= inject_Z (10 ^ 27))%Q -> apply_function (to_ctx E d) (lit "cbrt") [x] w = (Err Overflow, w).
Proof.
  intros D W L value EX fuel rnd E dbg cf d Hd x w Hx. rewrite (cbrt_is L fuel rnd E dbg cf d Hd). unfold checked_cbrt. set (v := ProofDecReal.v value) in *. pose proof (v_two L value EX) as V2. pose proof (v_one L value EX) as V1. pose proof (third L value EX) as V3. fold v in V1, V2, V3.
  assert (VX : v x = -2 \/ 8.5 * 10 ^ 14 <= v x <= 10 ^ 27).
  { destruct Hx as [Hx|[H1 H2]]; [left; apply Qeq_eqR in Hx; change (Q2R (value x)) with (v x) in Hx; rewrite Hx; unfold Q2R; cbn [Qnum Qden]; lra|right]. apply Qle_Rle in H1, H2. rewrite Q2R_int in H1, H2. change (Q2R (value x)) with (v x) in *.
    change (10 ^ 27)%Z with (10 ^ Z.of_nat 27)%Z in H2. rewrite <- pow_IZR in H2. split; [|exact H2]. eapply Rle_trans; [|exact H1]. rewrite mult_IZR. change (10 ^ 13)%Z with (10 ^ Z.of_nat 13)%Z. rewrite <- pow_IZR. lra. }
  assert (I : is_one L x = false). { destruct (is_one L x) eqn:I; [|reflexivity]. apply (is_one_iff L value EX), Qeq_eqR in I. change (Q2R (value x)) with (v x) in I. rewrite Q2R_1 in I. lra. }
  rewrite I. change TAYLOR with (S (S 98)). generalize 98%nat. intros turns. cbn [cbrt_loop].
  assert (ONEv : (value (ONE L) == 1)%Q) by apply (one_val L value EX). assert (TWOv : (value (TWO L) == 2)%Q) by apply (two_val L value EX).
  destruct (computes_exact value _ _ (ed_mul _ _ EX (ONE L) (ONE L))) as (xx & A1 & A2). { apply (rep_comp (inject_Z 1)); [rewrite ONEv; reflexivity|apply int_rep; reflexivity]. }
  destruct (computes_exact value _ _ (ed_mul _ _ EX (TWO L) (ONE L))) as (x2 & B1 & B2). { apply (rep_comp (inject_Z 2)); [rewrite TWOv, ONEv; reflexivity|apply int_rep; reflexivity]. }
  rewrite ONEv in A2. rewrite TWOv, ONEv in B2. change (1 * 1)%Q with 1%Q in A2. change (2 * 1)%Q with 2%Q in B2.
  unfold d_mul at 1. rewrite A1. cbn [ask]. unfold d_mul at 1. rewrite B1. cbn [ask].
  assert (NZ : ~ (value xx == 0)%Q) by (rewrite A2; discriminate).
  destruct (computes_exact value _ _ (ed_div _ _ EX x xx NZ)) as (a & C1 & C2). { apply (rep_comp (value x)); [rewrite A2; field|apply (ed_representable _ _ EX)]. }
  rewrite A2 in C2. unfold d_div at 1. rewrite C1. cbn [ask]. setoid_replace (value x / 1)%Q with (value x) in C2 by field.
  assert (VA : v a = v x) by (apply Qeq_eqR, C2). assert (VB : v x2 = 2) by (apply Qeq_eqR in B2; change (Q2R (value x2)) with (v x2) in B2; rewrite B2; unfold Q2R; cbn; lra).
  destruct VX as [VX|VX].
  - destruct Hx as [Hx|[H1 _]].
    + destruct (computes_exact value _ _ (ed_add _ _ EX a x2)) as (b & F1 & F2). { apply (rep_comp (inject_Z 0)); [rewrite C2, B2, Hx; reflexivity|apply int_rep; reflexivity]. }
      unfold d_add at 1. rewrite F1. cbn [ask]. assert (F0 : (value b == 0)%Q) by (rewrite F2, C2, B2, Hx; reflexivity).
      destruct (computes_exact value _ _ (ed_mul _ _ EX b (ONE_FRACT_3 L))) as (z & G1 & G2). { apply (rep_comp (inject_Z 0)); [rewrite F0; ring|apply int_rep; reflexivity]. }
      unfold d_mul at 1. rewrite G1. cbn [ask]. assert (G0 : (value z == 0)%Q) by (rewrite G2, F0; ring).
      destruct (computes_exact value _ _ (ed_mul _ _ EX z z)) as (zz & K1 & K2). { apply (rep_comp (inject_Z 0)); [rewrite G0; ring|apply int_rep; reflexivity]. }
      destruct (computes_exact value _ _ (ed_mul _ _ EX (TWO L) z)) as (z2 & M1 & M2). { apply (rep_comp (inject_Z 0)); [rewrite G0; ring|apply int_rep; reflexivity]. }
      unfold d_mul at 1. rewrite K1. cbn [ask]. unfold d_mul at 1. rewrite M1. cbn [ask]. unfold d_div at 1. rewrite (ed_div_zero _ _ EX x zz) by (rewrite K2, G0; ring). reflexivity.
    + apply Qle_Rle in H1. rewrite Q2R_int in H1. change (Q2R (value x)) with (v x) in H1. rewrite VX in H1. apply (le_IZR _ (-2)) in H1. exfalso. apply H1. reflexivity.
  - destruct (addr L value EX a x2) as (b & F1 & F2); [fold v; rewrite VA, VB, Rabs_pos_eq; lra|]. rewrite F1. cbn [ask]. fold v in F2. rewrite VA, VB, (Rabs_pos_eq (v x + 2)) in F2 by lra. rewrite e28_is in F2.
    apply Rabs_def2' in F2. rewrite e28_is in V3. apply Rabs_def2' in V3. set (t := v (ONE_FRACT_3 L)) in *. assert (Bb : 0.999999 * v x <= v b <= 1.1 * v x) by lra.
    assert (P1 : 0.999999 * v x * 0.333333 <= v b * t) by (apply Rmult_le_compat; lra). assert (P2 : v b * t <= 1.1 * v x * 0.34) by (apply Rmult_le_compat; lra).
    destruct (mulr L value EX b (ONE_FRACT_3 L)) as (z & G1 & G2); [fold v; fold t; rewrite Rabs_pos_eq; lra|]. rewrite G1. cbn [ask]. fold v in G2. fold t in G2. rewrite (Rabs_pos_eq (v b * t)) in G2 by lra. rewrite e28_is in G2. apply Rabs_def2' in G2.
    assert (Z0 : 2.82 * 10 ^ 14 <= v z) by lra. assert (ZZ : 2.82 * 10 ^ 14 * (2.82 * 10 ^ 14) <= v z * v z) by (apply Rmult_le_compat; lra).
    unfold d_mul at 1. rewrite (computes_over value _ _ (ed_mul _ _ EX z z)); [reflexivity|]. apply Rle_Qle. rewrite Q2R_abs, Q2R_mult, Q2R_int. change (Q2R (value z)) with (v z). rewrite Rabs_pos_eq by lra. eapply Rle_trans; [|exact ZZ].
    apply Rle_trans with (IZR (282 ^ 2 * 10 ^ 24)); [apply IZR_le; vm_compute; discriminate|]. rewrite mult_IZR. change (10 ^ 24)%Z with (10 ^ Z.of_nat 24)%Z. rewrite <- pow_IZR. change (282 ^ 2)%Z with 79524%Z. lra.
Qed.
Print Assumptions C76_cbrt_refuted.

(** ** Cases *)
Example C76_case : (exists q, ref_fun "cbrt" [num 27 0] = Ok q /\ (29999999 # 10000000 < q < 30000001 # 10000000)%Q) /\ (val (num 27 0) <= inject_Z (10 ^ 14))%Q /\ 3 * 3 * 3 = Q2R (val (num 27 0)) /\
  ref_fun "cbrt" [num (-2) 0] = Err Overflow /\ ref_fun "cbrt" [num (10 ^ 15) 0] = Err Overflow.
Proof.
  split; [eexists; split; [vm_compute; reflexivity|split; vm_compute; reflexivity]|]. split; [vm_compute; discriminate|]. split; [|split; vm_compute; reflexivity].
  replace (val (num 27 0)) with (inject_Z 27) by (vm_compute; reflexivity). rewrite Q2R_int. lra.
Qed.
