(** * Sine, cosine and tangent in decimal contexts (C71)

    The theorems hold for every decimal library whose arithmetic is as documented (SpecDecimal.exact_decimals). The sine, the
    cosine and the number pi they are compared with are those of the real numbers of Coq's standard library, where the sine is
    the sum of its power series. [degrees q] is the angle of [q] degrees, in radians. *)
From Coq Require Import List NArith ZArith QArith Qabs Qround Qreals Reals Bool Lia Lra String.
From Verif Require Import ModelBase ModelContext ModelEvaluator ModelText ModelDefault ModelFloat ModelNum ModelOps ModelStd ModelDecimal
  SpecText SpecExpr SpecTokens SpecOps SpecDecimal ProofText ProofDefault ProofRpn ProofTokens2 ProofBuild ProofCtx ProofWf ProofOps3 ProofDecRef ProofDecimal ProofDecimal2 ProofDecTrig ProofDecFun ProofDecFun2 PropDecimal PropDecimal2
  ProofReals ProofDecReal ProofDecReal2.
Import ListNotations.
Local Open Scope R_scope.

Definition degrees (q : Q) : R := Q2R q * PI / 180.

Section Calls.
Context {D W : Type}.
Variable L : dlib D.
Variable fuel : nat.
Variable rnd : W -> f64 * W.
Variable E : env.
Variable dbg : bool.
Variable cf : config.
Variable d : dctx D W.
Hypothesis Hd : decimal_context L fuel rnd E dbg cf = Ok d.
Lemma sin_is x w : apply_function (to_ctx E d) (lit "sin") [x] w = (or_over (ModelDecimal.call (to_radians L x) (checked_sin L)), w).
Proof. unfold apply_function. fn 17%nat (@trig_checked D W L "sin"%string (checked_sin L)) "sin"%string. reflexivity. Qed.
Lemma cos_is x w : apply_function (to_ctx E d) (lit "cos") [x] w = (or_over (ModelDecimal.call (to_radians L x) (checked_cos L)), w).
Proof. unfold apply_function. fn 18%nat (@trig_checked D W L "cos"%string (checked_cos L)) "cos"%string. reflexivity. Qed.
Lemma tan_is x w : apply_function (to_ctx E d) (lit "tan") [x] w = (or_over (ModelDecimal.call (to_radians L x) (checked_tan L)), w).
Proof. unfold apply_function. fn 19%nat (@trig_checked D W L "tan"%string (checked_tan L)) "tan"%string. reflexivity. Qed.
Lemma to_radians_is x w : apply_function (to_ctx E d) (lit "to_radians") [x] w = (or_over (to_radians L x), w).
Proof. unfold apply_function. fn 15%nat (@fwd_checked D W "to_radians"%string (to_radians L)) "to_radians"%string. reflexivity. Qed.
Lemma to_degrees_is x w : apply_function (to_ctx E d) (lit "to_degrees") [x] w = (or_over (to_degrees L x), w).
Proof. unfold apply_function. fn 16%nat (@fwd_checked D W "to_degrees"%string (to_degrees L)) "to_degrees"%string. reflexivity. Qed.
End Calls.

(** ** Close to the real sine and cosine *)
Lemma billion q : (Qabs q <= 1000000000)%Q -> Rabs (Q2R q) <= 10 ^ 9.
Proof. intros H. apply Qle_Rle in H. rewrite Q2R_abs in H. eapply Rle_trans; [exact H|]. unfold Q2R. cbn. lra. Qed.
Theorem C71_sine_cosine : forall D W (L : dlib D) value, exact_decimals L value -> forall fuel (rnd : W -> f64 * W) E dbg cf d, decimal_context L fuel rnd E dbg cf = Ok d ->
  forall x w, (Qabs (value x) <= 1000000000)%Q ->
  (exists y, apply_function (to_ctx E d) (lit "sin") [x] w = (Ok y, w) /\ Rabs (Q2R (value y) - sin (degrees (value x))) <= 3 / 10 ^ 16) /\
  (exists y, apply_function (to_ctx E d) (lit "cos") [x] w = (Ok y, w) /\ Rabs (Q2R (value y) - cos (degrees (value x))) <= 3 / 10 ^ 16).
Proof.
  intros D W L value EX fuel rnd E dbg cf d Hd x w Hx. apply billion in Hx. rewrite (sin_is L fuel rnd E dbg cf d Hd), (cos_is L fuel rnd E dbg cf d Hd).
  destruct (sin_degrees L value EX x Hx) as (s & -> & S). destruct (cos_degrees L value EX x Hx) as (c & -> & C). unfold degrees, ProofDecReal.v in *.
  split; [exists s|exists c]; (split; [reflexivity|]); lra.
Qed.
Print Assumptions C71_sine_cosine.
Lemma quarter_angle (q : Q) k : (q == inject_Z (90 * k))%Q -> Q2R q = 90 * IZR k.
Proof. intros H. rewrite (Qeq_eqR _ _ H), Q2R_int, mult_IZR. reflexivity. Qed.
Lemma int_value {D} (value : D -> Q) y j : ProofDecReal.v value y = IZR j -> (value y == inject_Z j)%Q.
Proof. intros H. apply eqR_Qeq. rewrite Q2R_int. exact H. Qed.

(** ** Right angles: exact *)
Definition right_angle_sine (k : Z) : Z := match (k mod 4)%Z with 1%Z => 1 | 3%Z => -1 | _ => 0 end%Z.
Definition right_angle_cosine (k : Z) : Z := match (k mod 4)%Z with 0%Z => 1 | 2%Z => -1 | _ => 0 end%Z.
Lemma cosine_is k : turns_sin (k + 1) = right_angle_cosine k.
Proof.
  unfold turns_sin, right_angle_cosine. rewrite Z.add_mod by lia. pose proof (Z.mod_pos_bound k 4 ltac:(lia)) as B. set (i := (k mod 4)%Z) in *.
  assert (C : (i = 0 \/ i = 1 \/ i = 2 \/ i = 3)%Z) by lia. destruct C as [->|[->|[->| ->]]]; reflexivity.
Qed.
Theorem C71_right_angles : forall D W (L : dlib D) value, exact_decimals L value -> forall fuel (rnd : W -> f64 * W) E dbg cf d, decimal_context L fuel rnd E dbg cf = Ok d ->
  forall x w k, (value x == inject_Z (90 * k))%Q -> (Z.abs k <= 111111)%Z ->
  (exists y, apply_function (to_ctx E d) (lit "sin") [x] w = (Ok y, w) /\ (value y == inject_Z (right_angle_sine k))%Q) /\
  (exists y, apply_function (to_ctx E d) (lit "cos") [x] w = (Ok y, w) /\ (value y == inject_Z (right_angle_cosine k))%Q) /\
  (Z.even k = true -> exists y, apply_function (to_ctx E d) (lit "tan") [x] w = (Ok y, w) /\ (value y == 0)%Q) /\
  (Z.odd k = true -> apply_function (to_ctx E d) (lit "tan") [x] w = (Err Overflow, w)).
Proof.
  intros D W L value EX fuel rnd E dbg cf d Hd x w k Hx Hk. apply quarter_angle in Hx. rewrite (sin_is L fuel rnd E dbg cf d Hd), (cos_is L fuel rnd E dbg cf d Hd), (tan_is L fuel rnd E dbg cf d Hd).
  destruct (sin_right L value EX x k Hx Hk) as (z & s & Z1 & S1 & S2). destruct (cos_right L value EX x k Hx Hk) as (z' & c & Z2 & C1 & C2). rewrite Z1 in Z2. injection Z2 as <-.
  apply int_value in S2, C2. rewrite cosine_is in C2. change (turns_sin k) with (right_angle_sine k) in S2. rewrite Z1. cbn [ModelDecimal.call]. unfold checked_tan. rewrite S1, C1. cbn [ModelDecimal.call].
  pose proof (Z.div_mod k 4 ltac:(lia)) as DM. pose proof (Z.mod_pos_bound k 4 ltac:(lia)) as B. unfold right_angle_sine, right_angle_cosine in *. set (i := (k mod 4)%Z) in *. set (m := (k / 4)%Z) in *.
  split; [exists s; split; [reflexivity|exact S2]|]. split; [exists c; split; [reflexivity|exact C2]|]. split; intros P.
  - apply Z.even_spec in P. destruct P as (h & P). assert (I : (i = 0 \/ i = 2)%Z) by lia.
    assert (C3 : exists j, (j = 1 \/ j = -1)%Z /\ (value c == inject_Z j)%Q) by (destruct I as [I|I]; rewrite I in C2; eexists; (split; [|exact C2]); [left|right]; reflexivity).
    assert (S3 : (value s == 0)%Q) by (destruct I as [I|I]; rewrite I in S2; exact S2). destruct C3 as (j & J & C3).
    assert (NZ : ~ (value c == 0)%Q) by (rewrite C3; destruct J as [->| ->]; discriminate).
    assert (Z0 : is_zero L c = false) by (apply not_true_iff_false; rewrite (is_zero_iff L value EX); exact NZ). rewrite Z0.
    assert (Q0 : (value s / value c == 0)%Q) by (rewrite S3; unfold Qdiv; apply Qmult_0_l).
    destruct (computes_exact value _ _ (ed_div _ _ EX s c NZ)) as (q & Q1 & Q2); [apply (rep_comp (inject_Z 0)); [rewrite Q0; reflexivity|apply int_rep; reflexivity]|].
    unfold d_div. rewrite Q1. cbn [must]. destruct (approx_near L value EX q) as (y & -> & _ & Y & _). exists y. split; [reflexivity|].
    apply (int_value value y 0). apply Y. unfold ProofDecReal.v. rewrite (Qeq_eqR _ _ Q2), (Qeq_eqR _ _ Q0), Q2R_0, Rminus_0_r, Rabs_R0. lra.
  - apply Z.odd_spec in P. destruct P as (h & P). assert (I : (i = 1 \/ i = 3)%Z) by lia.
    assert (C3 : (value c == 0)%Q) by (destruct I as [I|I]; rewrite I in C2; exact C2). apply (is_zero_iff L value EX) in C3. rewrite C3. reflexivity.
Qed.
Print Assumptions C71_right_angles.

(** ** Tangent: it is there unless the cosine is very small, and as exact as that permits. *)
Theorem C71_tangent : forall D W (L : dlib D) value, exact_decimals L value -> forall fuel (rnd : W -> f64 * W) E dbg cf d, decimal_context L fuel rnd E dbg cf = Ok d ->
  forall x w, (Qabs (value x) <= 1000000000)%Q ->
  (forall y, apply_function (to_ctx E d) (lit "tan") [x] w = (Ok y, w) ->
     Rabs (Q2R (value y) * cos (degrees (value x)) - sin (degrees (value x))) <= 4 / 10 ^ 16 * (1 + Rabs (Q2R (value y)))) /\
  (/ 10 ^ 6 <= Rabs (cos (degrees (value x))) -> exists y, apply_function (to_ctx E d) (lit "tan") [x] w = (Ok y, w) /\
     Rabs (Q2R (value y) - tan (degrees (value x))) * (cos (degrees (value x)) * cos (degrees (value x))) <= / 10 ^ 15).
Proof.
  intros D W L value EX fuel rnd E dbg cf d Hd x w Hx. apply billion in Hx. rewrite (tan_is L fuel rnd E dbg cf d Hd). 
  destruct (radians_near L value EX x Hx) as (z & Z1 & _). destruct (cos_degrees L value EX x Hx) as (c & C1 & C2). rewrite Z1 in C1 |- *. cbn [ModelDecimal.call] in *.
  set (t := degrees (value x)) in *. change (ProofDecReal.v value x * PI / 180) with t in C2.
  assert (R : forall y, checked_tan L z = Ok (Some y) -> Rabs (Q2R (value y) * cos t - sin t) <= 4 / 10 ^ 16 * (1 + Rabs (Q2R (value y)))).
  { intros y Hy. assert (Z0 : is_zero L c = false). { destruct (is_zero L c) eqn:B; [|reflexivity]. unfold checked_tan in Hy. rewrite C1 in Hy. cbn [ModelDecimal.call] in Hy. rewrite B in Hy. discriminate. }
    pose proof (tan_degrees L value EX x y z c Hx Z1 C1 Z0 Hy) as T. unfold degrees, ProofDecReal.v in *. fold t in T. pose proof (Rabs_pos (Q2R (value y))). lra. }
  split.
  - intros y Hy. apply R. destruct (checked_tan L z) as [[y'|]|k|]; cbn in Hy; try discriminate. injection Hy as ->. reflexivity.
  - intros Hc. destruct (tan_ok L value EX z) as (o & O1). assert (Z0 : is_zero L c = false).
    { apply not_true_iff_false. rewrite (is_zero_iff L value EX). intros C0. unfold ProofDecReal.v in C2. rewrite (Qeq_eqR _ _ C0), Q2R_0 in C2. unfold Rminus in C2. rewrite Rplus_0_l, Rabs_Ropp in C2. lra. }
    assert (Sm : exists y, o = Some y).
    { unfold checked_tan in O1. rewrite C1 in O1. cbn [ModelDecimal.call] in O1. rewrite Z0 in O1. destruct (sin_ok L value EX z) as (s & S1 & _). rewrite S1 in O1. cbn [ModelDecimal.call] in O1.
      unfold must in O1. destruct (d_div L s c) as [q|]; [|discriminate]. destruct (approx_near L value EX q) as (y & Y & _). rewrite Y in O1. injection O1 as <-. eexists; reflexivity. }
    destruct Sm as (y & ->). exists y. rewrite O1. split; [reflexivity|]. specialize (R y O1). set (q := Q2R (value y)) in *. clearbody q.
    pose proof (Rabs_pos q) as Q0. pose proof (COS_bound t) as CB. pose proof (SIN_bound t) as SB. set (C := Rabs (cos t)) in *.
    assert (CC : cos t * cos t = C * C) by (unfold C; rewrite <- Rabs_mult, Rabs_pos_eq; [reflexivity|apply Rle_0_sqr]).
    assert (Cb : C <= 1) by (unfold C; apply Rabs_le; lra). assert (NZ : cos t <> 0) by (intros N; unfold C in Hc; rewrite N, Rabs_R0 in Hc; lra).
    assert (Sb : Rabs (sin t) <= 1) by (apply Rabs_le; lra).
    (* the size of the result *)
    assert (QC : Rabs q * C <= 1 + 4 / 10 ^ 16 * (1 + Rabs q)).
    { unfold C. rewrite <- Rabs_mult. replace (q * cos t) with ((q * cos t - sin t) + sin t) by ring. eapply Rle_trans; [apply Rabs_triang|]. lra. }
    assert (QD : Rabs (q - tan t) * C <= 4 / 10 ^ 16 * (1 + Rabs q)).
    { unfold C. rewrite <- Rabs_mult. unfold tan. replace ((q - sin t / cos t) * cos t) with (q * cos t - sin t) by (field; exact NZ). exact R. }
    rewrite CC, <- Rmult_assoc. apply Rle_trans with (4 / 10 ^ 16 * (1 + Rabs q) * C); [apply Rmult_le_compat_r; lra|].
    assert (Q1 : Rabs q * C <= 1.1). { assert (Rabs q * (C - 4 / 10 ^ 16) <= 1 + 4 / 10 ^ 16) by lra. assert (Rabs q * (C / 2) <= Rabs q * (C - 4 / 10 ^ 16)) by (apply Rmult_le_compat_l; lra).
      assert (Rabs q * (4 / 10 ^ 16) <= Rabs q * (C * (4 / 10 ^ 10))) by (apply Rmult_le_compat_l; lra). lra. }
    replace (4 / 10 ^ 16 * (1 + Rabs q) * C) with (4 / 10 ^ 16 * (C + Rabs q * C)) by ring. lra.
Qed.
Print Assumptions C71_tangent.

(** ** Conversions *)
Lemma degrees_near D (L : dlib D) value (EX : exact_decimals L value) x : Rabs (Q2R (value x)) <= 100000 -> exists z, to_degrees L x = Ok (Some z) /\ Rabs (Q2R (value z) - Q2R (value x) * 180 / PI) <= 1.01 * / 10 ^ 16.
Proof.
  intros Hx. fold (ProofDecReal.v value x) in *. set (v := ProofDecReal.v value) in *. change (exists z, to_degrees L x = Ok (Some z) /\ Rabs (v z - v x * 180 / PI) <= 1.01 * / 10 ^ 16). unfold to_degrees.
  assert (Vp : v (cPI L) = IZR 31415926535897932384626433833 / 10 ^ 28) by (apply (v_lit28 L value EX); reflexivity).
  assert (V180 : v (int L 180) = 180) by (apply (v_int L value EX); reflexivity).
  pose proof (Rabs_def2' _ _ pi_b) as P. rewrite <- Vp in P. assert (Pb : 3.14 < v (cPI L) < 3.15) by (rewrite Vp; lra). clear Vp.
  assert (NZ : ~ (value (cPI L) == 0)%Q) by (apply v_nz; fold v; lra).
  assert (Eq : Q2R (value (int L 180) / value (cPI L)) = 180 / v (cPI L)). { rewrite Q2R_div by exact NZ. change (v (int L 180) / v (cPI L) = 180 / v (cPI L)). rewrite V180. reflexivity. }
  assert (Pi0 : 3.13 < PI < 3.16) by lra.
  assert (I1 : / 3.15 <= / v (cPI L) <= / 3.14) by (split; apply Rinv_le_contravar; lra). assert (I2 : / 3.16 <= / PI <= / 3.13) by (split; apply Rinv_le_contravar; lra).
  destruct (near26 value _ _ (ed_div _ _ EX (int L 180) (cPI L) NZ)) as (c & C1 & C2); [rewrite Eq; unfold Rdiv; apply Rabs_le; lra|]. rewrite Eq in C2. fold v in C2. unfold d_div. rewrite C1. cbn [must].
  assert (Id : Rabs (180 / v (cPI L) - 180 / PI) <= / 10 ^ 26).
  { replace (180 / v (cPI L) - 180 / PI) with (180 * (PI - v (cPI L)) * (/ v (cPI L) * / PI)) by (field; lra). rewrite !Rabs_mult, (Rabs_pos_eq 180), (Rabs_pos_eq (/ v (cPI L))), (Rabs_pos_eq (/ PI)) by lra.
    assert (A : Rabs (PI - v (cPI L)) <= / 10 ^ 28) by (apply Rabs_le; lra). pose proof (Rabs_pos (PI - v (cPI L))).
    apply Rle_trans with (180 * / 10 ^ 28 * (/ 3.14 * / 3.13)); [|lra]. apply Rmult_le_compat; [lra|apply Rmult_le_pos; lra|lra|apply Rmult_le_compat; lra]. }
  assert (Cd : Rabs (v c - 180 / PI) <= 2 * / 10 ^ 26). { replace (v c - 180 / PI) with ((v c - 180 / v (cPI L)) + (180 / v (cPI L) - 180 / PI)) by ring. eapply Rle_trans; [apply Rabs_triang|]. lra. }
  assert (Cb : Rabs (v c) <= 60). { replace (v c) with ((v c - 180 / PI) + 180 / PI) by ring. eapply Rle_trans; [apply Rabs_triang|]. rewrite (Rabs_pos_eq (180 / PI)) by (unfold Rdiv; lra). unfold Rdiv in *. lra. }
  destruct (near21 value _ _ (ed_mul _ _ EX x c)) as (y & Y1 & Y2).
  { rewrite Q2R_mult. change (Rabs (v x * v c) <= 39000000). rewrite Rabs_mult. apply Rle_trans with (100000 * 60); [|lra]. apply Rmult_le_compat; try apply Rabs_pos; assumption. }
  rewrite Q2R_mult in Y2. change (Rabs (v y - v x * v c) <= / 10 ^ 21) in Y2. unfold d_mul. rewrite Y1. cbn [must].
  destruct (approx_near L value EX y) as (z & Z1 & Z2 & _). fold v in Z2. exists z. split; [exact Z1|].
  replace (v z - v x * 180 / PI) with ((v z - v y) + ((v y - v x * v c) + v x * (v c - 180 / PI))) by (field; lra). eapply Rle_trans; [apply Rabs_triang|]. 
  pose proof (Rabs_triang (v y - v x * v c) (v x * (v c - 180 / PI))) as T. rewrite Rabs_mult in T.
  assert (Rabs (v x) * Rabs (v c - 180 / PI) <= 100000 * (2 * / 10 ^ 26)) by (apply Rmult_le_compat; try apply Rabs_pos; assumption). lra.
Qed.
Theorem C71_conversions : forall D W (L : dlib D) value, exact_decimals L value -> forall fuel (rnd : W -> f64 * W) E dbg cf d, decimal_context L fuel rnd E dbg cf = Ok d ->
  forall x w,
  ((Qabs (value x) <= 1000000000)%Q -> exists y, apply_function (to_ctx E d) (lit "to_radians") [x] w = (Ok y, w) /\ Rabs (Q2R (value y) - Q2R (value x) * PI / 180) <= 2 / 10 ^ 16) /\
  ((Qabs (value x) <= 100000)%Q -> exists y, apply_function (to_ctx E d) (lit "to_degrees") [x] w = (Ok y, w) /\ Rabs (Q2R (value y) - Q2R (value x) * 180 / PI) <= 2 / 10 ^ 16) /\
  ((Qabs (value x) <= 1000000)%Q -> exists y z, apply_function (to_ctx E d) (lit "to_radians") [x] w = (Ok y, w) /\ apply_function (to_ctx E d) (lit "to_degrees") [y] w = (Ok z, w) /\
     Rabs (Q2R (value z) - Q2R (value x)) <= 2 / 10 ^ 14).
Proof.
  intros D W L value EX fuel rnd E dbg cf d Hd x w. rewrite (to_radians_is L fuel rnd E dbg cf d Hd), (to_degrees_is L fuel rnd E dbg cf d Hd). repeat match goal with |- _ /\ _ => split end; intros Hx.
  - apply billion in Hx. destruct (radians_near L value EX x Hx) as (z & -> & Z & _). exists z. split; [reflexivity|]. unfold ProofDecReal.v in Z. lra.
  - apply Qle_Rle in Hx. rewrite Q2R_abs in Hx. destruct (degrees_near D L value EX x) as (z & -> & Z); [eapply Rle_trans; [exact Hx|]; unfold Q2R; cbn; lra|]. exists z. split; [reflexivity|]. lra.
  - assert (Hx' : Rabs (Q2R (value x)) <= 1000000). { apply Qle_Rle in Hx. rewrite Q2R_abs in Hx. eapply Rle_trans; [exact Hx|]. unfold Q2R; cbn; lra. }
    destruct (radians_near L value EX x) as (y & -> & Y & _); [unfold ProofDecReal.v; lra|]. exists y. unfold ProofDecReal.v in Y.
    pose proof (Rabs_def2' _ _ pi_b) as P. assert (Pi0 : 3.14 < PI < 3.15) by lra. assert (I2 : / 3.15 <= / PI <= / 3.14) by (split; apply Rinv_le_contravar; lra).
    assert (Yb : Rabs (Q2R (value y)) <= 100000).
    { replace (Q2R (value y)) with ((Q2R (value y) - Q2R (value x) * PI / 180) + Q2R (value x) * (PI / 180)) by field. eapply Rle_trans; [apply Rabs_triang|]. rewrite (Rabs_mult _ (PI / 180)), (Rabs_pos_eq (PI / 180)) by lra.
      assert (Rabs (Q2R (value x)) * (PI / 180) <= 1000000 * (3.15 / 180)) by (apply Rmult_le_compat; try apply Rabs_pos; lra). lra. }
    destruct (degrees_near D L value EX y Yb) as (z & Z1 & Z2). exists z. split; [reflexivity|]. rewrite (to_degrees_is L fuel rnd E dbg cf d Hd), Z1. split; [reflexivity|].
    replace (Q2R (value z) - Q2R (value x)) with ((Q2R (value z) - Q2R (value y) * 180 / PI) + (Q2R (value y) - Q2R (value x) * PI / 180) * (180 * / PI)) by (field; lra).
    eapply Rle_trans; [apply Rabs_triang|]. rewrite (Rabs_mult _ (180 * / PI)), (Rabs_pos_eq (180 * / PI)) by lra.
    assert (Rabs (Q2R (value y) - Q2R (value x) * PI / 180) * (180 * / PI) <= 1.01 * / 10 ^ 16 * (180 * / 3.14)) by (apply Rmult_le_compat; try apply Rabs_pos; lra). lra.
Qed.
Print Assumptions C71_conversions.

(** ** Not exact elsewhere, and wrong for very large angles: the reference implementation *)
Theorem C71_exact_refuted : ref_fun "sin" [num 30 0] = Ok (1250000000000000000000000001 # 2500000000000000000000000000)%Q /\ sin (degrees 30) = / 2.
Proof.
  split; [vm_compute; reflexivity|]. unfold degrees. replace (Q2R 30 * PI / 180) with (PI / 6) by (unfold Q2R; cbn; field). rewrite sin_PI6. lra.
Qed.
Print Assumptions C71_exact_refuted.
(** 10^25 full turns *)
Theorem C71_large_refuted : exists q, ref_fun "sin" [num 3600000000000000000000000000 0] = Ok q /\ (5 # 100 < q)%Q /\ sin (degrees (val (num 3600000000000000000000000000 0))) = 0.
Proof.
  eexists. split; [vm_compute; reflexivity|]. split; [vm_compute; reflexivity|]. unfold degrees.
  replace (val (num 3600000000000000000000000000 0)) with (inject_Z 3600000000000000000000000000) by (vm_compute; reflexivity). rewrite Q2R_int.
  replace (IZR 3600000000000000000000000000 * PI / 180) with (0 + 2 * IZR 10000000000000000000000000 * PI) by lra. rewrite sin_period_Z. apply sin_0.
Qed.
Print Assumptions C71_large_refuted.
Example C71_case : (Qabs (val (num 1234567 4)) <= 1000000000)%Q /\ (val (num (-270) 0) == inject_Z (90 * -3))%Q /\ ref_fun "sin" [num (-270) 0] = Ok 1%Q /\ ref_fun "cos" [num 180 0] = Ok (-1)%Q /\
  ref_fun "tan" [num 90 0] = Err Overflow /\ ref_fun "tan" [num 360 0] = Ok 0%Q /\ ref_fun "tan" [num 45 0] = Ok 1%Q /\ / 10 ^ 6 <= Rabs (cos (degrees 45)).
Proof.
  repeat match goal with |- _ /\ _ => split end; try (vm_compute; reflexivity); [vm_compute; discriminate|]. unfold degrees. replace (Q2R 45 * PI / 180) with (PI / 4) by (unfold Q2R; cbn; field). rewrite cos_PI4.
  pose proof (sqrt_lt_1 1 4 ltac:(lra) ltac:(lra) ltac:(lra)) as S1. assert (S2 : sqrt 2 <= 2). { rewrite <- (sqrt_square 2) at 2 by lra. apply sqrt_le_1; lra. } assert (S0 : 0 < sqrt 2) by (apply sqrt_lt_R0; lra).
  rewrite Rabs_pos_eq; [|left; apply Rdiv_lt_0_compat; lra]. assert (/ 2 <= / sqrt 2) by (apply Rinv_le_contravar; lra). unfold Rdiv. lra.
Qed.
