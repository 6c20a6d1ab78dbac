(** * C68: [random] stays in its range *)
From Coq Require Import List NArith ZArith QArith Qabs Qpower Qround Bool Lia Lqa String.
From Coq Require Import Floats.SpecFloat.
From Verif Require Import ModelBase ModelContext ModelEvaluator ModelText ModelDefault ModelFloat ModelNum ModelOps ModelStd
  SpecText SpecExpr SpecOps SpecDecimal SpecDouble SpecFunctions SpecRound ProofText ProofDefault ProofRpn ProofOps ProofBuild ProofCtx ProofWf ProofDecimal ProofFloat ProofDouble ProofDouble2 ProofSnap
  ProofRound ProofRound2 ProofRound3 PropDouble.
Import ListNotations.
Local Open Scope Z_scope.

Lemma below_one : forall r u, stands_for r u -> (u < 1)%Q -> (u <= 1 - 2 ^ (-53))%Q.
Proof.
  intros r u H L. destruct r as [s|s| |s m e]; try contradiction; [simpl in H; rewrite H; discriminate|]. destruct H as [(A & B & C) H]. fold (sgn s m) in H. rewrite sgn_split in H.
  assert (P : (0 < dyadic (Zpos m) e)%Q) by (apply dy_pos; lia). assert (O : (0 <= 1 - 2 ^ (-53))%Q) by discriminate. destruct s; [lra|].
  assert (E : e <= -53).
  { destruct (Z.le_gt_cases e (-53)) as [X|X]; [exact X|exfalso]. assert (M : 2 ^ 52 <= Zpos m) by lia.
    assert (Y : (1 <= dyadic (Zpos m) e)%Q); [|lra]. apply Qle_trans with (dyadic (2 ^ 52) (-52)); [discriminate|]. unfold dyadic. pose proof (two_mono (-52) e ltac:(lia)) as T.
    apply Qle_trans with (inject_Z (2 ^ 52) * 2 ^ e)%Q; [setoid_rewrite Qmult_comm; apply Qmult_le_compat_r; [exact T|discriminate]|apply Qmult_le_compat_r; [rewrite <- Zle_Qle; exact M|apply Qlt_le_weak, two_pos]]. }
  rewrite H. setoid_replace (1 * dyadic (Zpos m) e)%Q with (dyadic (Zpos m) e) by ring. apply Qle_trans with (dyadic (2 ^ 53 - 1) (-53)); [|discriminate].
  unfold dyadic. pose proof (two_mono e (-53) E) as T.
  apply Qle_trans with (inject_Z (2 ^ 53 - 1) * 2 ^ e)%Q; [apply Qmult_le_compat_r; [rewrite <- Zle_Qle; lia|apply Qlt_le_weak, two_pos]|setoid_rewrite Qmult_comm; apply Qmult_le_compat_r; [exact T|discriminate]].
Qed.
Lemma double_small : forall q, a_double q -> (Qabs q < overflow_threshold)%Q.
Proof.
  intros q (m & e & A & B & C). apply Qle_lt_trans with (dyadic (2 ^ 53 - 1) 971); [|reflexivity]. rewrite C. unfold dyadic. rewrite Qabs_Qmult. pose proof (two_pos e) as T. rewrite (Qabs_pos (2 ^ e)) by lra.
  apply Qle_trans with (inject_Z (2 ^ 53 - 1) * 2 ^ e)%Q.
  - apply Qmult_le_compat_r; [|lra]. setoid_replace (Qabs (inject_Z m)) with (inject_Z (Z.abs m)) by reflexivity. rewrite <- Zle_Qle. lia.
  - setoid_rewrite Qmult_comm. apply Qmult_le_compat_r; [apply two_mono; lia|discriminate].
Qed.
(** A normal number times a number below 1 is rounded to something smaller. *)
Lemma product_below : forall r u x q z p, stands_for r u -> (0 <= u < 1)%Q -> stands_for x q -> (2 ^ (-1022) < q)%Q -> rounds (u * q) z -> stands_for z p -> (p < q)%Q.
Proof.
  intros r u x q z p Hr Hu Hx Hq R Hz. pose proof (below_one r u Hr (proj2 Hu)) as U. pose proof (two_pos (-1022)) as T0. pose proof (stands_double _ _ Hx) as Dq.
  destruct x as [s|s| |s m e]; try contradiction; [simpl in Hx; lra|]. destruct Hx as [(A & B & C) Hx]. fold (sgn s m) in Hx. rewrite sgn_split in Hx.
  assert (P : (0 < dyadic (Zpos m) e)%Q) by (apply dy_pos; lia). destruct s; [lra|]. assert (X : (q == dyadic (Zpos m) e)%Q) by (rewrite Hx; ring). clear Hx.
  assert (M : 2 ^ 52 <= Zpos m).
  { destruct C as [C|C]; [|exact C]. subst e. destruct (Z.le_gt_cases (2 ^ 52) (Zpos m)) as [L|L]; [exact L|exfalso].
    assert ((dyadic (Zpos m) (-1074) < dyadic (2 ^ 52) (-1074))%Q) by (apply (proj2 (Qlt_alt _ _)); rewrite dy_cmp; apply Z.compare_lt_iff; exact L).
    assert ((dyadic (2 ^ 52) (-1074) == 2 ^ (-1022))%Q) by reflexivity. lra. }
  assert (LT : (Qabs (u * q) < overflow_threshold)%Q) by (pose proof (double_small _ Dq) as S; rewrite Qabs_pos in S by lra; rewrite Qabs_pos by nra; nra).
  pose proof (rounds_le _ _ _ _ R Hz LT Dq) as [LE _]. specialize (LE ltac:(nra)).
  destruct (Qlt_le_dec p q) as [G|G]; [exact G|exfalso]. assert (E : (p == q)%Q) by lra. clear LE G.
  assert (GAP : (dyadic (Zpos m) (e - 53) <= q - u * q)%Q).
  { setoid_replace (dyadic (Zpos m) (e - 53)) with (q * 2 ^ (-53))%Q by (rewrite X; unfold dyadic; replace (e - 53) with (e + -53) by lia; rewrite two_plus; ring). nra. }
  destruct (Z.eq_dec (Zpos m) (2 ^ 52)) as [M52|M52].
  - rewrite M52 in *. assert (E1 : e <> -1074) by (intros ->; assert ((dyadic (2 ^ 52) (-1074) == 2 ^ (-1022))%Q) by reflexivity; lra).
    assert (V : (dyadic (2 ^ 53 - 1) (e - 1) == q - dyadic (2 ^ 52) (e - 53))%Q).
    { rewrite X. unfold dyadic. replace (e - 1) with (e - 53 + 52) by lia. replace e with (e - 53 + 53) at 2 by lia. rewrite !two_plus. change (2 ^ 52)%Q with (inject_Z (2 ^ 52)). change (2 ^ 53)%Q with (inject_Z (2 ^ 53)).
      setoid_replace (inject_Z (2 ^ 52) * (2 ^ (e - 53) * inject_Z (2 ^ 53)) - inject_Z (2 ^ 52) * 2 ^ (e - 53))%Q with (2 ^ (e - 53) * (inject_Z (2 ^ 52) * inject_Z (2 ^ 53) - inject_Z (2 ^ 52)))%Q by ring.
      setoid_replace (inject_Z (2 ^ 53 - 1) * (2 ^ (e - 53) * inject_Z (2 ^ 52)))%Q with (2 ^ (e - 53) * (inject_Z (2 ^ 53 - 1) * inject_Z (2 ^ 52)))%Q by ring.
      apply Qmult_comp; reflexivity. }
    assert (D : a_double (dyadic (2 ^ 53 - 1) (e - 1))) by (exists (2 ^ 53 - 1), (e - 1); split; [lia|split; [lia|reflexivity]]).
    pose proof (rounds_le _ _ _ _ R Hz LT D) as [LE _]. specialize (LE ltac:(rewrite V; lra)). assert (0 < dyadic (2 ^ 52) (e - 53))%Q by (apply dy_pos; lia). lra.
  - assert (D : a_double (dyadic (Zpos m - 1) e)) by (exists (Zpos m - 1), e; split; [lia|split; [exact A|reflexivity]]).
    destruct R as (R1 & _ & _). destruct (R1 LT) as (p0 & P1 & P2 & _). pose proof (stands_unique _ _ _ P1 Hz) as E0. pose proof (P2 _ D) as N. rewrite E0, E in N.
    assert (V : (dyadic (Zpos m - 1) e == q - 2 ^ e)%Q) by (rewrite X; unfold dyadic; unfold Z.sub; rewrite inject_Z_plus; change (inject_Z (- (1))) with (-1)%Q; ring).
    pose proof (two_pos e) as Te. assert (GAP2 : (2 ^ e * (1 # 2) < q - u * q)%Q).
    { apply Qlt_le_trans with (2 := GAP). unfold dyadic. replace e with (e - 53 + 53) at 1 by lia. rewrite two_plus. change (2 ^ 53)%Q with (inject_Z (2 ^ 53)).
      setoid_replace (2 ^ (e - 53) * inject_Z (2 ^ 53) * (1 # 2))%Q with (inject_Z (2 ^ 52) * 2 ^ (e - 53))%Q by (setoid_replace (2 ^ (e - 53) * inject_Z (2 ^ 53) * (1 # 2))%Q with (2 ^ (e - 53) * (inject_Z (2 ^ 53) * (1 # 2)))%Q by ring; rewrite Qmult_comm; apply Qmult_comp; reflexivity).
      apply Qmult_lt_compat_r; [apply two_pos|]. rewrite <- Zlt_Qlt. lia. }
    rewrite V in N. rewrite (Qabs_neg (u * q - q)) in N by lra. destruct (Qlt_le_dec (u * q) (q - 2 ^ e)) as [Y|Y]; [rewrite Qabs_neg in N by lra|rewrite Qabs_pos in N by lra]; lra.
Qed.

(** All doubles are multiples of 2^-1074. *)
Lemma multiple : forall q, a_double q -> exists k, (q == dyadic k (-1074))%Q.
Proof. intros q (m & e & _ & B & C). exists (m * 2 ^ (e + 1074)). rewrite dy_shift by lia. replace (-1074 + (e + 1074)) with e by lia. exact C. Qed.
(** The difference of two doubles, rounded and then made smaller, is not more than the exact difference. *)
Lemma scaled_difference : forall r u p q dz d sz s, stands_for r u -> (0 <= u < 1)%Q -> a_double p -> a_double q -> (q <= p)%Q -> (p - q < overflow_threshold)%Q ->
  rounds (p - q) dz -> stands_for dz d -> rounds (d * u) sz -> stands_for sz s -> (0 <= s)%Q /\ (q + s <= p)%Q.
Proof.
  intros r u p q dz d sz s Hr Hu Dp Dq Hqp HT Rd Hd Rs Hs. assert (TD : (Qabs (p - q) < overflow_threshold)%Q) by (rewrite Qabs_pos; lra).
  pose proof (stands_double _ _ Hd) as Dd. assert (D0 : (0 <= d)%Q) by (apply (rounds_le _ _ _ _ Rd Hd TD zero_is_double); lra).
  pose proof (double_small d Dd) as Sd. rewrite Qabs_pos in Sd by exact D0. assert (DU : (0 <= d * u <= d)%Q) by nra.
  assert (TS : (Qabs (d * u) < overflow_threshold)%Q) by (rewrite Qabs_pos; lra).
  split; [apply (rounds_le _ _ _ _ Rs Hs TS zero_is_double); lra|]. assert (SD : (s <= d)%Q) by (apply (rounds_le _ _ _ _ Rs Hs TS Dd); lra).
  assert (G : (s <= p - q)%Q); [|lra]. destruct (Qlt_le_dec (2 ^ (-1022)) d) as [L|L].
  - assert (LT : (s < d)%Q) by (apply (product_below r u dz d sz s Hr Hu Hd L); [apply (rounds_comp (d * u)); [ring|exact Rs]|exact Hs]).
    destruct (Qlt_le_dec (p - q) s) as [B|B]; [exfalso|exact B]. destruct Rd as (R1 & _ & _). destruct (R1 TD) as (d0 & P1 & P2 & _). pose proof (stands_unique _ _ _ P1 Hd) as E0.
    pose proof (P2 s (stands_double _ _ Hs)) as N. rewrite E0 in N. rewrite (Qabs_neg (p - q - d)), (Qabs_neg (p - q - s)) in N by lra. lra.
  - destruct (multiple p Dp) as (kp & Kp), (multiple q Dq) as (kq & Kq). set (k := kp - kq). assert (K : (p - q == dyadic k (-1074))%Q) by (unfold k, Z.sub; rewrite dy_add, dy_opp, Kp, Kq; reflexivity).
    assert (K52 : k <= 2 ^ 52).
    { destruct (Z.le_gt_cases k (2 ^ 52)) as [X|X]; [exact X|exfalso]. assert (A : a_double (dyadic (2 ^ 52 + 1) (-1074))) by (exists (2 ^ 52 + 1), (-1074); split; [lia|split; [lia|reflexivity]]).
      assert (Y : (dyadic (2 ^ 52 + 1) (-1074) <= d)%Q). { apply (rounds_le _ _ _ _ Rd Hd TD A). rewrite K. apply (proj2 (Qle_alt _ _)). rewrite dy_cmp. intros Z. apply Z.compare_gt_iff in Z. lia. }
      assert (2 ^ (-1022) < dyadic (2 ^ 52 + 1) (-1074))%Q by reflexivity. lra. }
    assert (K0 : 0 <= k). { destruct (Z.le_gt_cases 0 k) as [X|X]; [exact X|exfalso]. destruct (dy_sign k (-1074) (p - q) K) as (_ & S2 & S3). assert (0 < dyadic (- k) (-1074))%Q by (apply dy_pos; lia). rewrite dy_opp in *. lra. }
    assert (Dk : a_double (p - q)) by (exists k, (-1074); split; [lia|split; [lia|exact K]]).
    assert (d <= p - q)%Q by (apply (rounds_le _ _ _ _ Rd Hd TD Dk); lra). lra.
Qed.
Lemma lt_exact : forall x y p q, stands_for x p -> stands_for y q -> (f_lt x y = true <-> (p < q)%Q).
Proof.
  intros x y p q Hx Hy. unfold f_lt, SFltb. change (SFcompare x y) with (f_cmp x y). rewrite (cmp_exact x y p q Hx Hy). destruct (p ?= q)%Q eqn:C.
  - apply (proj2 (Qeq_alt _ _)) in C. split; [discriminate|intros; lra].
  - apply (proj2 (Qlt_alt _ _)) in C. split; auto.
  - apply (proj2 (Qgt_alt _ _)) in C. split; [discriminate|intros; lra].
Qed.
Lemma sampled_range : forall r u x y q p, stands_for r u -> (0 <= u < 1)%Q -> stands_for x q -> stands_for y p -> (q <= p)%Q ->
  ((p - q < overflow_threshold)%Q -> exists v, stands_for (f_add x (f_mul (f_sub y x) r)) v /\ (q <= v <= p)%Q) /\
  ((overflow_threshold <= p - q)%Q -> finite (f_add x (f_mul (f_sub y x) r)) = false).
Proof.
  intros r u x y q p Hr Hu Hx Hy H. pose proof (sub_rounds y x p q Hy Hx) as Rd. pose proof (stands_double _ _ Hx) as Dq. pose proof (stands_double _ _ Hy) as Dp. split; intros HT.
  - assert (TD : (Qabs (p - q) < overflow_threshold)%Q) by (rewrite Qabs_pos; lra). destruct (proj1 Rd TD) as (d & Hd & _).
    pose proof (mul_rounds (f_sub y x) r d u Hd Hr) as Rs.
    assert (D0 : (0 <= d)%Q) by (apply (rounds_le _ _ _ _ Rd Hd TD zero_is_double); lra). pose proof (double_small d (stands_double _ _ Hd)) as Sd. rewrite Qabs_pos in Sd by exact D0.
    destruct (proj1 Rs) as (s & Hs & _); [rewrite Qabs_pos; nra|].
    destruct (scaled_difference r u p q _ d _ s Hr Hu Dp Dq H HT Rd Hd Rs Hs) as [S0 S1].
    pose proof (add_rounds x (f_mul (f_sub y x) r) q s Hx Hs) as Rv. pose proof (double_small q Dq) as Tq. pose proof (double_small p Dp) as Tp.
    assert (TV : (Qabs (q + s) < overflow_threshold)%Q). { apply Qabs_Qlt_condition. apply Qabs_Qlt_condition in Tq. apply Qabs_Qlt_condition in Tp. lra. }
    destruct (proj1 Rv TV) as (v & Hv & _). exists v. split; [exact Hv|]. split; [apply (rounds_le _ _ _ _ Rv Hv TV Dq); lra|apply (rounds_le _ _ _ _ Rv Hv TV Dp); lra].
  - rewrite (proj1 (proj2 Rd) HT). destruct r as [s|s| |s m e]; try contradiction; destruct x; try contradiction; reflexivity.
Qed.

(** [random] uses one number [u] from the random source, 0 <= u < 1. Over [f64], [random()] is that number; [random(max)] is
    [u * max] rounded: from 0 to max, and below max unless that is at most 2^-1022; [random(min, max)] is between min and max,
    both included, if the difference max - min can be represented; if not, it is not a finite number. *)
Theorem C68_range : forall W fuel L (rnd : W -> f64 * W) docs E dbg cf d, f64_context fuel L rnd docs E dbg cf d ->
  forall w r u w', rnd w = (r, w') -> stands_for r u -> (0 <= u < 1)%Q ->
  apply_function (to_ctx E d) (lit "random") [] w = (Ok r, w') /\
  (forall x q, stands_for x q -> negative x = false -> exists z p, apply_function (to_ctx E d) (lit "random") [x] w = (Ok z, w') /\ rounds (u * q) z /\ stands_for z p /\ (0 <= p <= q)%Q /\ ((2 ^ (-1022) < q)%Q -> (p < q)%Q)) /\
  (forall x y q p, stands_for x q -> stands_for y p -> (q <= p)%Q -> exists z, apply_function (to_ctx E d) (lit "random") [x; y] w = (Ok z, w') /\
     ((p - q < overflow_threshold)%Q -> exists v, stands_for z v /\ (q <= v <= p)%Q) /\
     ((overflow_threshold <= p - q)%Q -> finite z = false)).
Proof.
  intros W fuel L rnd docs E dbg cf d Hd w r u w' Hw Hr Hu. unfold apply_function.
  rewrite (f64_fun W fuel L rnd docs E dbg cf d Hd 15 8 (op_rand (f64_num fuel) rnd) (lit "random") eq_refl eq_refl (alike_refl _)). cbn [op_rand fn_call].
  split; [rewrite Hw; reflexivity|]. split.
  - intros x q Hx Nx. destruct (stands_finite _ _ Hx) as [F1 F2]. exists (f_mul r x).
    assert (Q0 : (0 <= q)%Q) by (destruct (Qlt_le_dec q 0) as [B|B]; [destruct (negative_sign _ _ Hx) as [_ N]; specialize (N B); congruence|exact B]).
    pose proof (mul_rounds r x u q Hr Hx) as R. pose proof (stands_double _ _ Hx) as Dq. pose proof (double_small q Dq) as Tq. rewrite Qabs_pos in Tq by exact Q0.
    assert (T : (Qabs (u * q) < overflow_threshold)%Q) by (rewrite Qabs_pos by nra; nra). destruct (proj1 R T) as (p & Hp & _). exists p. split; [|split; [exact R|split; [exact Hp|split]]].
    + unfold bind, lift, try_to_float. cbn [n_to_f64 f64_num]. rewrite F1, F2. cbn [orb]. change (f_sign_negative x) with (negative x). rewrite Nx, Hw. reflexivity.
    + split; [apply (rounds_le _ _ _ _ R Hp T zero_is_double); nra|apply (rounds_le _ _ _ _ R Hp T Dq); nra].
    + intros B. exact (product_below r u x q _ p Hr Hu Hx B R Hp).
  - intros x y q p Hx Hy H. destruct (stands_finite _ _ Hx) as [F1 F2], (stands_finite _ _ Hy) as [G1 G2]. exists (f_add x (f_mul (f_sub y x) r)).
    split; [|exact (sampled_range r u x y q p Hr Hu Hx Hy H)]. unfold bind, lift, try_to_float. cbn [n_to_f64 f64_num]. rewrite F1, F2, G1, G2. cbn [orb].
    assert (LT : f_lt y x = false) by (apply not_true_iff_false; rewrite (lt_exact y x p q Hy Hx); lra). rewrite LT, Hw. reflexivity.
Qed.
Print Assumptions C68_range.

(** Wrong bounds are errors, and draw nothing from the source. *)
Theorem C68_errors : forall W fuel L (rnd : W -> f64 * W) docs E dbg cf d, f64_context fuel L rnd docs E dbg cf d -> forall w (x y : f64),
  (finite x = false -> apply_function (to_ctx E d) (lit "random") [x] w = (Err NAN, w)) /\
  (finite x = true -> negative x = true -> apply_function (to_ctx E d) (lit "random") [x] w = (Err NegativeValue, w)) /\
  (finite x = false \/ finite y = false -> apply_function (to_ctx E d) (lit "random") [x; y] w = (Err NAN, w)) /\
  (forall q p, stands_for x q -> stands_for y p -> (p < q)%Q -> apply_function (to_ctx E d) (lit "random") [x; y] w = (Err InvalidInput, w)).
Proof.
  intros W fuel L rnd docs E dbg cf d Hd w x y. unfold apply_function.
  rewrite (f64_fun W fuel L rnd docs E dbg cf d Hd 15 8 (op_rand (f64_num fuel) rnd) (lit "random") eq_refl eq_refl (alike_refl _)). cbn [op_rand fn_call].
  split; [|split; [|split]].
  - intros F. destruct x; try discriminate F; reflexivity.
  - intros F N. destruct x as [s|s| |s m e]; try discriminate F; simpl in N; subst s; reflexivity.
  - intros [F|F]; [destruct x; try discriminate F; reflexivity|]. destruct x; destruct y; try discriminate F; reflexivity.
  - intros q p Hx Hy H. destruct (stands_finite _ _ Hx) as [F1 F2], (stands_finite _ _ Hy) as [G1 G2]. unfold bind, lift, try_to_float. cbn [n_to_f64 f64_num]. rewrite F1, F2, G1, G2. cbn [orb].
    rewrite (proj2 (lt_exact y x p q Hy Hx) H). reflexivity.
Qed.
Print Assumptions C68_errors.

(** ** Over machine integers *)
Lemma trunc_Z_spec : forall v p, stands_for v p -> f_trunc_Z v = Some (truncated p).
Proof.
  intros v p Hp. pose proof (trunc_spec v p Hp) as S. destruct v as [s|s| |s m e]; try contradiction.
  - cbn [f_trunc_Z]. simpl in Hp. f_equal. unfold truncated. destruct (Qle_bool 0 p); [rewrite (Qfloor_comp _ _ Hp)|rewrite (Qceiling_comp _ _ Hp)]; reflexivity.
  - destruct Hp as [N Hp]. destruct (parts m e N) as (A & r & d0 & Pd & Pr & PA & G & M & F). cbn [f_trunc_Z]. f_equal.
    specialize (F (fun _ a _ _ => a) s). cbv beta in F. destruct F as [F _]; [left; reflexivity|reflexivity|].
    pose proof (stands_unique _ _ _ F S) as U. rewrite inject_Z_injective in U. rewrite <- U. unfold signed.
    assert (X : (if 0 <=? e then Zpos m * 2 ^ e else Zpos m / 2 ^ (- e)) = A); [|rewrite X; reflexivity].
    destruct (Z.leb_spec 0 e) as [L0|L0].
    + assert (K : (inject_Z (Zpos m * 2 ^ e) * inject_Z d0 == inject_Z (A * d0 + r))%Q) by (rewrite <- G; unfold dyadic; rewrite inject_Z_mult, two_pow by exact L0; reflexivity).
      rewrite <- inject_Z_mult, inject_Z_injective in K. nia.
    + destruct (M L0) as [<- M2]. rewrite M2. rewrite Z.div_add_l, (Z.div_small r) by lia. lia.
Qed.
Lemma truncated_between : forall a b q, (inject_Z a <= q <= inject_Z b)%Q -> a <= truncated q <= b.
Proof.
  intros a b q [A B]. unfold truncated. destruct (Qle_bool 0 q) eqn:S.
  - split; [|rewrite <- (Qfloor_Z b); apply Qfloor_resp_le; exact B]. rewrite <- (Qfloor_Z a). apply Qfloor_resp_le. exact A.
  - split; [rewrite <- (Qceiling_Z a); apply Qceiling_resp_le; exact A|rewrite <- (Qceiling_Z b); apply Qceiling_resp_le; exact B].
Qed.
Lemma int_fun : forall W t dbg L (rnd : W -> f64 * W) docs E cf d,
  checked_context (int_num t dbg) L rnd docs E dbg cf = Ok d \/ unchecked_context (int_num t dbg) L rnd E dbg cf = Ok d -> forall i j f q,
  nth_error (checked_funs (int_num t dbg) L rnd docs) i = Some f -> nth_error (unchecked_funs (int_num t dbg) L rnd) j = Some f -> ascii_alike q (fn_name f) ->
  get_function (to_ctx E d) q = Some f.
Proof.
  intros W t dbg L rnd docs E cf d [Hd|Hd] i j f q H1 H2 Hq; [exact (checked_fun (int_num t dbg) L rnd docs E dbg cf d i f q Hd H1 Hq)|exact (unchecked_fun (int_num t dbg) L rnd E dbg cf d j f q Hd H2 Hq)].
Qed.
(** [random()] of integers is always 0; [random(max)] is from 0 to max - 1 (0 for 0); [random(min, max)] from min to max.
    For bounds up to 2^53, above which they are not all doubles. *)
Theorem C68_integers : forall W t dbg L (rnd : W -> f64 * W) docs E cf d, 0 < bits t ->
  checked_context (int_num t dbg) L rnd docs E dbg cf = Ok d \/ unchecked_context (int_num t dbg) L rnd E dbg cf = Ok d ->
  forall w r u w', rnd w = (r, w') -> stands_for r u -> (0 <= u < 1)%Q ->
  apply_function (to_ctx E d) (lit "random") [] w = (Ok 0, w') /\
  (forall z, fits t z -> 0 <= z <= 2 ^ 53 -> exists v, apply_function (to_ctx E d) (lit "random") [z] w = (Ok v, w') /\ 0 <= v <= z /\ (0 < z -> v < z)) /\
  (forall z, - 2 ^ 53 <= z < 0 -> apply_function (to_ctx E d) (lit "random") [z] w = (Err NegativeValue, w)) /\
  (forall a b, fits t a -> fits t b -> Z.abs a <= 2 ^ 53 -> Z.abs b <= 2 ^ 53 -> a <= b -> exists v, apply_function (to_ctx E d) (lit "random") [a; b] w = (Ok v, w') /\ a <= v <= b) /\
  (forall a b, Z.abs a <= 2 ^ 53 -> Z.abs b <= 2 ^ 53 -> b < a -> apply_function (to_ctx E d) (lit "random") [a; b] w = (Err InvalidInput, w)).
Proof.
  intros W t dbg L rnd docs E cf d Ht Hd w r u w' Hw Hr Hu. unfold apply_function.
  rewrite (int_fun W t dbg L rnd docs E cf d Hd 15 8 (op_rand (int_num t dbg) rnd) (lit "random") eq_refl eq_refl (alike_refl _)). cbn [op_rand fn_call].
  assert (FZ : forall z, Z.abs z <= 2 ^ 53 -> stands_for (f_of_Z z) (inject_Z z) /\ try_to_float (int_num t dbg) z = Ok (f_of_Z z)).
  { intros z B. assert (S : stands_for (f_of_Z z) (inject_Z z)) by (apply of_Z_exact, int_double; exact B). split; [exact S|]. unfold try_to_float. cbn [n_to_f64 int_num]. destruct (stands_finite _ _ S) as [-> ->]. reflexivity. }
  assert (OUT : forall z v a b, stands_for z v -> (inject_Z a <= v <= inject_Z b)%Q -> fits t a -> fits t b -> or_overflow (n_from_f64 (int_num t dbg) z) = Ok (truncated v) /\ a <= truncated v <= b).
  { intros z v a b Hz Hv Fa Fb. pose proof (truncated_between a b v Hv) as T. split; [|exact T]. cbn [n_from_f64 int_num]. rewrite (trunc_Z_spec z v Hz). unfold checked.
    assert (F : fits t (truncated v)) by (clear - T Fa Fb; unfold fits in *; destruct (ModelNum.signed t); lia). rewrite (proj2 (fits_range t _) F). reflexivity. }
  assert (F0 : fits t 0) by (unfold fits; pose proof (Z.pow_nonneg 2 (bits t - 1) ltac:(lia)); pose proof (Z.pow_pos_nonneg 2 (bits t - 1) ltac:(lia) ltac:(lia)); pose proof (Z.pow_pos_nonneg 2 (bits t) ltac:(lia) ltac:(lia)); destruct (ModelNum.signed t); lia).
  assert (NG : forall z, f_sign_negative (f_of_Z z) = match z with Zneg _ => true | _ => false end).
  { intros z. change (f_sign_negative (f_of_Z z)) with (negative (f_of_Z z)). unfold f_of_Z, f_of. rewrite normalize_negative. destruct z; reflexivity. }
  split; [|split; [|split; [|split]]].
  - rewrite Hw. cbn [n_from_f64 int_num]. rewrite (trunc_Z_spec r u Hr). assert (T0 : truncated u = 0).
    { unfold truncated. rewrite (proj2 (Qle_bool_iff 0 u) (proj1 Hu)). assert (A : 0 <= Qfloor u) by (apply (Qfloor_resp_le 0 u); apply Hu).
      pose proof (Qfloor_le u) as B. assert (C : (inject_Z (Qfloor u) < inject_Z 1)%Q) by (change (inject_Z 1) with 1%Q; lra). rewrite <- Zlt_Qlt in C. lia. }
    rewrite T0. unfold checked. rewrite (proj2 (fits_range t 0) F0). reflexivity.
  - intros z Fz Bz. destruct (FZ z) as [Sz Tz]; [rewrite Z.abs_eq by lia; lia|]. unfold bind, lift. rewrite Tz. rewrite NG.
    replace (match z with Zneg _ => true | _ => false end) with false by (destruct z; [reflexivity|reflexivity|lia]). rewrite Hw.
    pose proof (mul_rounds r (f_of_Z z) u (inject_Z z) Hr Sz) as R. assert (Z0 : (0 <= inject_Z z)%Q) by (change 0%Q with (inject_Z 0); rewrite <- Zle_Qle; lia).
    pose proof (stands_double _ _ Sz) as Dq. pose proof (double_small _ Dq) as Tq. rewrite Qabs_pos in Tq by exact Z0.
    assert (T : (Qabs (u * inject_Z z) < overflow_threshold)%Q) by (rewrite Qabs_pos by nra; nra). destruct (proj1 R T) as (p & Hp & _).
    assert (P0 : (0 <= p)%Q) by (apply (rounds_le _ _ _ _ R Hp T zero_is_double); nra). assert (P1 : (p <= inject_Z z)%Q) by (apply (rounds_le _ _ _ _ R Hp T Dq); nra).
    destruct (OUT _ p 0 z Hp (conj P0 P1) F0 Fz) as [-> B]. exists (truncated p). split; [reflexivity|]. split; [exact B|]. intros Pz.
    assert (LT : (p < inject_Z z)%Q). { refine (product_below r u (f_of_Z z) (inject_Z z) (f_mul r (f_of_Z z)) p Hr Hu Sz _ R Hp). apply Qlt_le_trans with (inject_Z 1); [reflexivity|rewrite <- Zle_Qle; lia]. }
    unfold truncated. rewrite (proj2 (Qle_bool_iff 0 p) P0). pose proof (Qfloor_le p) as C. assert (D : (inject_Z (Qfloor p) < inject_Z z)%Q) by lra. rewrite <- Zlt_Qlt in D. exact D.
  - intros z Bz. destruct (FZ z) as [Sz Tz]; [rewrite Z.abs_neq by lia; lia|]. unfold bind, lift. rewrite Tz, NG. destruct z; try lia. reflexivity.
  - intros a b Fa Fb Ba Bb Hab. destruct (FZ a Ba) as [Sa Ta], (FZ b Bb) as [Sb Tb]. unfold bind, lift. rewrite Ta. cbv beta iota. rewrite Tb. cbv beta iota.
    assert (LE : (inject_Z a <= inject_Z b)%Q) by (rewrite <- Zle_Qle; exact Hab).
    assert (LT : f_lt (f_of_Z b) (f_of_Z a) = false) by (apply not_true_iff_false; rewrite (lt_exact _ _ _ _ Sb Sa); lra). rewrite LT, Hw.
    destruct (sampled_range r u _ _ _ _ Hr Hu Sa Sb LE) as [S _]. destruct S as (v & Hv & Bv).
    { apply Qle_lt_trans with (inject_Z (2 ^ 54)); [|reflexivity]. unfold Qminus. rewrite <- inject_Z_opp, <- inject_Z_plus, <- Zle_Qle. clear - Ba Bb. lia. }
    destruct (OUT _ v a b Hv Bv Fa Fb) as [-> B]. exists (truncated v). split; [reflexivity|exact B].
  - intros a b Ba Bb Hab. destruct (FZ a Ba) as [Sa Ta], (FZ b Bb) as [Sb Tb]. unfold bind, lift. rewrite Ta. cbv beta iota. rewrite Tb. cbv beta iota.
    assert (LT : f_lt (f_of_Z b) (f_of_Z a) = true) by (rewrite (lt_exact _ _ _ _ Sb Sa), <- Zlt_Qlt; exact Hab). rewrite LT. reflexivity.
Qed.
Print Assumptions C68_integers.

(** ** Refuted: that [random(min, max)] is always a number between min and max *)
Theorem C68_wide_range_refuted : forall W fuel L (rnd : W -> f64 * W) docs E dbg cf d, f64_context fuel L rnd docs E dbg cf d ->
  forall w w', rnd w = (f_of 1 (-1), w') -> stands_for f_max (dyadic (2 ^ 53 - 1) 971) /\
  apply_function (to_ctx E d) (lit "random") [opposite f_max; f_max] w = (Ok (S754_infinity false), w').
Proof.
  intros W fuel L rnd docs E dbg cf d Hd w w' Hw. split; [apply of_stands; lia|]. unfold apply_function.
  rewrite (f64_fun W fuel L rnd docs E dbg cf d Hd 15 8 (op_rand (f64_num fuel) rnd) (lit "random") eq_refl eq_refl (alike_refl _)). cbn [op_rand fn_call].
  unfold bind, lift. change (try_to_float (f64_num fuel) (opposite f_max)) with (Ok (opposite f_max)). change (try_to_float (f64_num fuel) f_max) with (Ok f_max). cbv beta iota.
  replace (f_lt f_max (opposite f_max)) with false by (vm_compute; reflexivity). cbv beta iota. rewrite Hw. vm_compute. reflexivity.
Qed.
Print Assumptions C68_wide_range_refuted.

(** ** Cases: a source that gives 3/4 *)
Definition three_quarters (w : nat) : f64 * nat := (f_of 3 (-2), S w).
Definition random_ctx : dctx f64 nat := unres (checked_context (f64_num 100) no_libm three_quarters true std_env true implicit_config) implicit_config.
Definition random_int_ctx : dctx Z nat := unres (checked_context (int_num i64 true) no_libm three_quarters true std_env true implicit_config) implicit_config.
Lemma random_ctx_is : f64_context 100 no_libm three_quarters true std_env true implicit_config random_ctx.
Proof. left. unfold random_ctx. rewrite (checked_is (f64_num 100) no_libm three_quarters true std_env true f_PI f_E eq_refl eq_refl). reflexivity. Qed.
Example C68_case : stands_for (fst (three_quarters 0)) (3 # 4) /\ (0 <= 3 # 4 < 1)%Q /\
  apply_function (to_ctx std_env random_ctx) (lit "random") [] 5%nat = (Ok (f_of 3 (-2)), 6%nat) /\
  apply_function (to_ctx std_env random_ctx) (lit "random") [f_of_Z 10] 5%nat = (Ok (f_of 15 (-1)), 6%nat) /\
  apply_function (to_ctx std_env random_ctx) (lit "random") [f_of_Z (-10); f_of_Z 10] 5%nat = (Ok (f_of_Z 5), 6%nat) /\
  apply_function (to_ctx std_env random_int_ctx) (lit "random") [] 5%nat = (Ok 0, 6%nat) /\
  apply_function (to_ctx std_env random_int_ctx) (lit "random") [10] 5%nat = (Ok 7, 6%nat) /\
  apply_function (to_ctx std_env random_int_ctx) (lit "random") [-3; 10] 5%nat = (Ok 6, 6%nat).
Proof.
  split; [apply (stands_comp _ (dyadic 3 (-2))); [reflexivity|apply of_stands; lia]|]. split; [split; [discriminate|reflexivity]|]. repeat split; vm_compute; reflexivity.
Qed.
