(** * Particular values of the decimal functions *)
From Coq Require Import List NArith ZArith QArith Qabs Qround Qpower Bool Lia Lqa String.
From Verif Require Import ModelBase ModelContext ModelText ModelDefault ModelFloat ModelNum ModelOps ModelDecimal
  SpecText SpecExpr SpecOps SpecDecimal ProofText ProofDefault ProofBuild ProofCtx ProofOps3 ProofDecimal ProofDecimal2 ProofDecTrig ProofDecFun.
Import ListNotations.
Local Open Scope Z_scope.

Section Values.
Context {D : Type}.
Variable L : dlib D.
Variable value : D -> Q.
Hypothesis EX : exact_decimals L value.
Variable fuel : nat.
Notation "| q |" := (Qabs q) (at level 30, q at level 200, format "| q |") : Q_scope.

Lemma minus_val : (value (ONE_MINUS L) == -1)%Q. Proof. apply (lit_val L value EX). reflexivity. Qed.
Lemma half_val : (value (HALF L) == 1 # 2)%Q.
Proof. pose proof (ed_literal _ _ EX 5 1%N ltac:(reflexivity) ltac:(lia)) as P. fold (HALF L) in P. change (inject_Z (10 ^ Z.of_N 1)) with 10%Q in P. change (inject_Z 5) with 5%Q in P. lra. Qed.
Lemma approx_int : forall x z, (value x == inject_Z z)%Q -> exists y, approx L x = Ok (Some y) /\ (value y == inject_Z z)%Q.
Proof.
  intros x z Hx. destruct (approx_ok L value EX x) as (y & Y & [(k & K1 & K2)|(-> & _)]); [|exists x; split; [exact Y|exact Hx]]. exists y. split; [exact Y|].
  rewrite K1. rewrite Hx in K2. assert (z = k); [|subst; reflexivity].
  assert (E : (|inject_Z (z - k)| <= 1 # 2)%Q). { eapply Qle_trans; [|exact K2]. unfold Z.sub. rewrite inject_Z_plus, inject_Z_opp. apply Qle_refl. }
  change (|inject_Z (z - k)|)%Q with (inject_Z (Z.abs (z - k))) in E. unfold Qle in E. cbn [inject_Z Qnum Qden] in E. lia.
Qed.
Lemma ln_pos_only : forall x, (value x <= 0)%Q -> checked_ln L fuel x = Ok None.
Proof.
  intros x Hx. unfold checked_ln. assert (G : d_gt L x (ZERO L) = false) by (apply (d_gt_false L value EX); rewrite (zero_val L value EX); exact Hx).
  destruct fuel; cbn [ln_rec]; rewrite G; reflexivity.
Qed.
Lemma ln_one : forall x, (value x == 1)%Q -> checked_ln L fuel x = Ok (Some (ZERO L)).
Proof.
  intros x Hx. unfold checked_ln. assert (G : d_gt L x (ZERO L) = true) by (apply (d_gt_iff L value EX); rewrite (zero_val L value EX), Hx; reflexivity).
  apply (is_one_iff L value EX) in Hx. destruct fuel; cbn [ln_rec]; rewrite G, Hx; reflexivity.
Qed.
Lemma ln_ten : forall x, (2 <= fuel)%nat -> (value x == 10)%Q -> exists y, checked_ln L fuel x = Ok (Some y) /\ (value y == value (LN_10 L))%Q.
Proof.
  intros x Hf Hx. pose proof (zero_val L value EX) as V0. pose proof (one_val L value EX) as V1. pose proof (ten_val L value EX) as V10. unfold checked_ln.
  assert (G : d_gt L x (ZERO L) = true) by (apply (d_gt_iff L value EX); rewrite V0, Hx; reflexivity).
  assert (G1 : is_one L x = false). { destruct (is_one L x) eqn:B; [|reflexivity]. apply (is_one_iff L value EX) in B. rewrite Hx in B. discriminate B. }
  assert (G2 : d_lt L x (ONE L) = false) by (apply (d_lt_false L value EX); rewrite V1, Hx; discriminate).
  assert (G3 : d_gt L x (ONE L) = true) by (apply (d_gt_iff L value EX); rewrite V1, Hx; reflexivity).
  destruct (div_exact L value EX x (TEN L) (value x) ltac:(reflexivity)) as (a & A1 & A2); [rewrite V10; discriminate|apply (rep_comp (inject_Z 1)); [rewrite Hx, V10; reflexivity|apply int_rep; reflexivity]|].
  assert (A : (value a == 1)%Q) by (rewrite A2, Hx, V10; reflexivity).
  assert (G4 : d_gt L a (ONE L) = false) by (apply (d_gt_false L value EX); rewrite V1, A; discriminate).
  assert (La : forall d, ln_rec L fuel d a = Ok (Some (ZERO L))).
  { assert (G5 : d_gt L a (ZERO L) = true) by (apply (d_gt_iff L value EX); rewrite V0, A; reflexivity). apply (is_one_iff L value EX) in A. intros d. destruct d; cbn [ln_rec]; rewrite G5, A; reflexivity. }
  destruct (computes_exact value _ _ (ed_mul _ _ EX (LN_10 L) (int L 1))) as (b & B1 & B2).
  { apply (rep_comp (value (LN_10 L))); [|apply (ed_representable _ _ EX)]. fold (ONE L). rewrite V1. ring. }
  destruct (computes_exact value _ _ (ed_add _ _ EX (ZERO L) b)) as (r & R1 & R2).
  { apply (rep_comp (value (LN_10 L))); [|apply (ed_representable _ _ EX)]. rewrite B2, V0. fold (ONE L). rewrite V1. ring. }
  exists r. split.
  - assert (Q1 : forall d, (1 <= d)%nat -> ln_rec L fuel d x = Ok (Some r)); [|apply Q1; lia]. intros [|d] Hd; [lia|]. cbn [ln_rec]. rewrite G, G1, G2. cbn [negb].
    assert (Red : ln_reduce L fuel x 0 = Ok (Some (a, 1))). { destruct fuel as [|[|f]]; [lia|lia|]. cbn [ln_reduce]. rewrite G3, A1, G4. reflexivity. }
    rewrite Red, La. cbn [ModelDecimal.call]. unfold d_mul, d_add. rewrite B1. cbn [ask]. rewrite R1. reflexivity.
  - rewrite R2, B2, V0. fold (ONE L). rewrite V1. ring.
Qed.
Lemma exp_zero_one : forall x, ((value x == 0)%Q -> checked_exp L x = Ok (Some (ONE L))) /\ ((value x == 1)%Q -> checked_exp L x = Ok (Some (cE L))).
Proof.
  intros x. unfold checked_exp. split; intros H.
  - apply (is_zero_iff L value EX) in H. rewrite H. reflexivity.
  - destruct (is_zero L x) eqn:B; [apply (is_zero_iff L value EX) in B; rewrite B in H; discriminate H|]. apply (is_one_iff L value EX) in H. rewrite H. reflexivity.
Qed.
Lemma radians_zero : forall x, (value x == 0)%Q -> exists y, to_radians L x = Ok (Some y) /\ (value y == 0)%Q.
Proof.
  intros x Hx. unfold to_radians. pose proof (pi_val L value EX) as P. assert (V : (value (int L 180) == 180)%Q) by (apply (lit_val L value EX); reflexivity).
  assert (N0 : ~ (value (int L 180) == 0)%Q) by (rewrite V; discriminate).
  destruct (bounded value _ _ (1 # 50) (ed_div _ _ EX (cPI L) (int L 180) N0)) as (c & C1 & C2 & _); [rewrite P, V; discriminate|discriminate|].
  unfold d_div. rewrite C1. cbn [must]. destruct (computes_exact value _ _ (ed_mul _ _ EX x c)) as (y & Y1 & Y2); [apply (rep_comp (inject_Z 0)); [rewrite Hx; change (inject_Z 0) with 0%Q; ring|apply int_rep; reflexivity]|].
  unfold d_mul. rewrite Y1. cbn [must]. apply (approx_int y 0). rewrite Y2, Hx. change (inject_Z 0) with 0%Q. ring.
Qed.
Lemma rem_zero : forall x, (value x == 0)%Q -> exists r, d_rem L x (PI_2 L) = Some r /\ (value r == 0)%Q.
Proof.
  intros x Hx. assert (P : (value (PI_2 L) == two_pi)%Q) by (apply (lit28 L value EX); reflexivity).
  destruct (ed_rem _ _ EX x (PI_2 L)) as (z & Z1 & Z2); [rewrite P; discriminate|]. exists z. split; [exact Z1|]. rewrite Z2.
  assert (T : truncated (value x / value (PI_2 L)) = 0). { rewrite (truncated_comp _ (inject_Z 0)); [apply truncated_int|]. rewrite Hx, P. reflexivity. } rewrite T, Hx. change (inject_Z 0) with 0%Q. ring.
Qed.
Lemma trig_zero : forall x, (value x == 0)%Q -> checked_sin L x = Ok (Some (ZERO L)) /\ checked_cos L x = Ok (Some (ONE L)) /\ exists y, checked_tan L x = Ok (Some y) /\ (value y == 0)%Q.
Proof.
  intros x Hx. destruct (rem_zero x Hx) as (r & R1 & R2). pose proof (zero_val L value EX) as V0. pose proof (one_val L value EX) as V1.
  assert (S : checked_sin L x = Ok (Some (ZERO L))). { unfold checked_sin. rewrite R1. cbn [must]. assert (G : d_eq L r (ZERO L) = true) by (apply (d_eq_iff L value EX); rewrite R2, V0; reflexivity). rewrite G. reflexivity. }
  assert (C : checked_cos L x = Ok (Some (ONE L))). { unfold checked_cos. rewrite R1. cbn [must]. apply (is_zero_iff L value EX) in R2. rewrite R2. reflexivity. }
  split; [exact S|]. split; [exact C|]. unfold checked_tan. rewrite C. cbn [ModelDecimal.call]. assert (G : is_zero L (ONE L) = false). { destruct (is_zero L (ONE L)) eqn:B; [|reflexivity]. apply (is_zero_iff L value EX) in B. rewrite V1 in B. discriminate B. }
  rewrite G, S. cbn [ModelDecimal.call]. destruct (div_exact L value EX (ZERO L) (ONE L) 0 V0) as (q & -> & Q2); [rewrite V1; discriminate|apply (rep_comp (inject_Z 0)); [rewrite V1; reflexivity|apply int_rep; reflexivity]|]. cbn [must].
  apply (approx_int q 0). rewrite Q2, V1. reflexivity.
Qed.
Lemma hyper_zero : forall x, (value x == 0)%Q -> (exists y, sinh L x = Ok (Some y) /\ (value y == 0)%Q) /\ (exists y, cosh L x = Ok (Some y) /\ (value y == 1)%Q) /\ (exists y, tanh L x = Ok (Some y) /\ (value y == 0)%Q).
Proof.
  intros x Hx. pose proof (zero_val L value EX) as V0. pose proof (one_val L value EX) as V1. pose proof (two_val L value EX) as V2.
  pose proof (proj1 (exp_zero_one x) Hx) as E0. assert (Hn : (value (d_neg L x) == 0)%Q) by (rewrite (ed_neg _ _ EX), Hx; reflexivity). pose proof (proj1 (exp_zero_one _) Hn) as E1.
  assert (S : exists y, sinh L x = Ok (Some y) /\ (value y == 0)%Q).
  { unfold sinh. rewrite E0, E1. cbn [ModelDecimal.call]. destruct (computes_exact value _ _ (ed_sub _ _ EX (ONE L) (ONE L))) as (d & D1 & D2); [apply (rep_comp (inject_Z 0)); [rewrite V1; reflexivity|apply int_rep; reflexivity]|].
    unfold d_sub. rewrite D1. cbn [must]. destruct (div_exact L value EX d (TWO L) 0) as (q & -> & Q2); [rewrite D2, V1; reflexivity|rewrite V2; discriminate|apply (rep_comp (inject_Z 0)); [rewrite V2; reflexivity|apply int_rep; reflexivity]|].
    exists q. split; [reflexivity|]. rewrite Q2, V2. reflexivity. }
  assert (C : exists y, cosh L x = Ok (Some y) /\ (value y == 1)%Q).
  { unfold cosh. rewrite E0, E1. cbn [ModelDecimal.call]. destruct (computes_exact value _ _ (ed_add _ _ EX (ONE L) (ONE L))) as (d & D1 & D2); [apply (rep_comp (inject_Z 2)); [rewrite V1; reflexivity|apply int_rep; reflexivity]|].
    unfold d_add. rewrite D1. cbn [must]. destruct (div_exact L value EX d (TWO L) 2) as (q & -> & Q2); [rewrite D2, V1; reflexivity|rewrite V2; discriminate|apply (rep_comp (inject_Z 1)); [rewrite V2; reflexivity|apply int_rep; reflexivity]|].
    exists q. split; [reflexivity|]. rewrite Q2, V2. reflexivity. }
  split; [exact S|]. split; [exact C|]. unfold tanh. destruct S as (s & -> & S), C as (c & -> & C). cbn [ModelDecimal.call].
  destruct (div_exact L value EX s c 0 S) as (q & -> & Q2); [rewrite C; discriminate|apply (rep_comp (inject_Z 0)); [rewrite C; reflexivity|apply int_rep; reflexivity]|]. exists q. split; [reflexivity|]. rewrite Q2, C. reflexivity.
Qed.

(** ** Square roots *)
(** The Babylonian step, from [r], gives a number within [2 * 10^-s] of the mean of [X / r] and [r]. *)
Lemma step_close : forall X r y s, ~ (value r == 0)%Q -> 0 <= s <= 28 -> ((|value X / value r| + |value r| + 2) * inject_Z (10 ^ s) < inject_Z (2 ^ 95))%Q ->
  forall q t, d_div L X r = Some q -> d_add L q r = Some t -> d_mul L (HALF L) t = Some y ->
  (|value y - (1 # 2) * (value X / value r + value r)| * inject_Z (10 ^ s) <= 2)%Q.
Proof.
  intros X r y s Hr Hs HB q t Hq Ht Hy. pose proof (ed_div _ _ EX X r Hr) as (_ & _ & C1). pose proof (ed_add _ _ EX q r) as (_ & _ & C2). pose proof (ed_mul _ _ EX (HALF L) t) as (_ & _ & C3).
  pose proof half_val as V. set (A := (value X / value r)%Q) in *. set (B := value r) in *. set (P := inject_Z (10 ^ s)) in *.
  assert (P1 : (1 <= P)%Q). { unfold P. change 1%Q with (inject_Z 1). rewrite <- Zle_Qle. pose proof (Z.pow_pos_nonneg 10 s). lia. }
  set (M := inject_Z (2 ^ 95)) in *. assert (ML : (M <= inject_Z (limit - 1))%Q) by (unfold M; rewrite <- Zle_Qle; rewrite limit_val; lia). set (LM := inject_Z (limit - 1)) in *.
  pose proof (Qabs_nonneg A) as NA. pose proof (Qabs_nonneg B) as NB.
  assert (HA : (|A| * P < M)%Q) by nra. destruct C1 as (q' & Q1 & Q2); [nra|]. unfold d_div in Hq. rewrite Q1 in Hq. injection Hq as ->. specialize (Q2 s Hs HA). fold P in Q2.
  assert (DQ : (|value q - A| <= 1)%Q). { pose proof (Qabs_nonneg (value q - A)). nra. }
  assert (HQ : (|value q + B| <= |A| + |B| + 1)%Q). { pose proof (Qabs_triangle (value q - A) (A + B)) as T1. pose proof (Qabs_triangle A B) as T2. setoid_replace (value q - A + (A + B))%Q with (value q + B)%Q in T1 by ring. lra. }
  assert (HQP : (|value q + B| * P < M)%Q) by nra.
  destruct C2 as (t' & T1 & T2); [nra|]. unfold d_add in Ht. rewrite T1 in Ht. injection Ht as ->. specialize (T2 s Hs HQP). fold P in T2.
  assert (DT : (|value t - (value q + B)| <= 1)%Q). { pose proof (Qabs_nonneg (value t - (value q + B))). nra. }
  assert (HT : (|value t| <= |A| + |B| + 2)%Q). { pose proof (Qabs_triangle (value t - (value q + B)) (value q + B)) as T3. setoid_replace (value t - (value q + B) + (value q + B))%Q with (value t) in T3 by ring. lra. }
  assert (HH : (|value (HALF L) * value t| == (1 # 2) * |value t|)%Q) by (rewrite V, Qabs_Qmult; reflexivity).
  assert (HTP : (|value (HALF L) * value t| * P < M)%Q). { rewrite HH. pose proof (Qabs_nonneg (value t)). nra. }
  destruct C3 as (y' & Y1 & Y2); [rewrite HH; pose proof (Qabs_nonneg (value t)); nra|]. unfold d_mul in Hy. rewrite Y1 in Hy. injection Hy as ->. specialize (Y2 s Hs HTP). fold P in Y2. rewrite V in Y2.
  assert (F : (|value y - (1 # 2) * (A + B)| <= |value y - (1 # 2) * value t| + (1 # 2) * |value t - (value q + B)| + (1 # 2) * |value q - A|)%Q).
  { pose proof (Qabs_triangle (value y - (1 # 2) * value t) ((1 # 2) * (value t - (value q + B)) + (1 # 2) * (value q - A))) as U1.
    pose proof (Qabs_triangle ((1 # 2) * (value t - (value q + B))) ((1 # 2) * (value q - A))) as U2. rewrite !Qabs_Qmult in U2. change (|1 # 2|)%Q with (1 # 2)%Q in U2.
    setoid_replace (value y - (1 # 2) * value t + ((1 # 2) * (value t - (value q + B)) + (1 # 2) * (value q - A)))%Q with (value y - (1 # 2) * (A + B))%Q in U1 by ring. lra. }
  nra.
Qed.
Lemma sqrt_fixed : forall f X x r y, sqrt_loop L f X x r = Ok (Some y) -> ~ (value y == 0)%Q ->
  ((value x == 0)%Q \/ exists q t r', d_div L X x = Some q /\ d_add L q x = Some t /\ d_mul L (HALF L) t = Some r' /\ r = r' /\ ~ (value x == 0)%Q) ->
  exists y0 q t, (value y0 == value y)%Q /\ d_div L X y0 = Some q /\ d_add L q y0 = Some t /\ d_mul L (HALF L) t = Some y.
Proof.
  induction f as [|f IH]; intros X x r y H Hy Hx; cbn [sqrt_loop] in H; destruct (d_eq L x r) eqn:B.
  - injection H as ->. apply (d_eq_iff L value EX) in B. destruct Hx as [Hx|(q & t & r' & H1 & H2 & H3 & -> & H4)]; [exfalso; apply Hy; rewrite <- B; exact Hx|]. exists x, q, t. auto.
  - discriminate.
  - injection H as ->. apply (d_eq_iff L value EX) in B. destruct Hx as [Hx|(q & t & r' & H1 & H2 & H3 & -> & H4)]; [exfalso; apply Hy; rewrite <- B; exact Hx|]. exists x, q, t. auto.
  - unfold ask in H. destruct (d_div L X r) as [q|] eqn:E1; [|discriminate]. destruct (d_add L q r) as [t|] eqn:E2; [|discriminate]. destruct (d_mul L (HALF L) t) as [r'|] eqn:E3; [|discriminate].
    apply (IH X r r' y H Hy). right. exists q, t, r'. repeat split; auto. intros Z0. unfold d_div in E1. rewrite (ed_div_zero _ _ EX X r Z0) in E1. discriminate.
Qed.
Lemma sqrt_accurate : forall x y s, checked_sqrt L fuel x = Ok (Some y) -> ~ (value y == 0)%Q -> 0 <= s <= 28 ->
  ((|value x / value y| + |value y| + 2) * inject_Z (10 ^ s) < inject_Z (2 ^ 95))%Q -> (|value y - value x / value y| * inject_Z (10 ^ s) <= 4)%Q.
Proof.
  intros x y s H Hy Hs HB. unfold checked_sqrt in H. destruct (d_sign_negative L x); [discriminate|]. destruct (d_to_f64 L x) as [f|]; [|discriminate]. unfold ask in H. destruct (d_from_f64 L (f_sqrt f)) as [r|]; [|discriminate].
  destruct (sqrt_fixed fuel x (ZERO L) r y H Hy ltac:(left; apply (zero_val L value EX))) as (y0 & q & t & E0 & H1 & H2 & H3).
  assert (B0 : ((|value x / value y0| + |value y0| + 2) * inject_Z (10 ^ s) < inject_Z (2 ^ 95))%Q) by (rewrite E0; exact HB).
  pose proof (step_close x y0 y s ltac:(rewrite E0; exact Hy) Hs B0 q t H1 H2 H3) as F. rewrite E0 in F.
  setoid_replace (value y - value x / value y)%Q with (2 * (value y - (1 # 2) * (value x / value y + value y)))%Q by ring. rewrite Qabs_Qmult. change (|2|)%Q with 2%Q. lra.
Qed.
End Values.
