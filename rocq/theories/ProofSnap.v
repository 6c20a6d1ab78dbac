(** * Rounding and snapping of doubles *)
From Coq Require Import List ZArith QArith Qabs Qround Qpower Bool Lia Lqa.
From Coq Require Import Floats.SpecFloat.
From Verif Require Import ModelBase ModelFloat ModelNum SpecDecimal SpecDouble SpecOps SpecFunctions ProofFloat ProofDouble ProofDouble2 ProofOps.
Import ListNotations.
Local Open Scope Z_scope.

Definition signed (s : bool) (a : Z) : Z := if s then - a else a.

Lemma negative_of : forall x q, stands_for x q -> (q < 0)%Q -> negative x = true.
Proof.
  intros x q H L. destruct x as [s|s| |s m e]; try contradiction; simpl in *; [lra|]. destruct H as [_ H]. destruct s; [reflexivity|].
  assert (P : (0 < dyadic (Zpos m) e)%Q) by (apply dy_pos; lia). lra.
Qed.
Lemma positive_of : forall x q, stands_for x q -> (0 < q)%Q -> negative x = false.
Proof.
  intros x q H L. destruct x as [s|s| |s m e]; try contradiction; simpl in *; [lra|]. destruct H as [_ H]. destruct s; [|reflexivity].
  assert (P : (0 < dyadic (Zpos m) e)%Q) by (apply dy_pos; lia). change (Zneg m) with (- Zpos m) in H. rewrite dy_opp in H. lra.
Qed.

(** A finite double is [A + r/d], up to the sign. *)
Lemma parts : forall m e, normal_form m e -> exists A r d, 0 < d /\ 0 <= r < d /\ 0 <= A /\ (dyadic (Zpos m) e * inject_Z d == inject_Z (A * d + r))%Q /\ (e < 0 -> d = 2 ^ (- e) /\ Zpos m = A * d + r) /\
  forall adj s, (adj s A r d = A \/ adj s A r d = A + 1) -> (r = 0 -> d = 1 -> adj s A r d = A) ->
    stands_for (f_integral adj (S754_finite s m e)) (inject_Z (signed s (adj s A r d))) /\ negative (f_integral adj (S754_finite s m e)) = s.
Proof.
  intros m e N. destruct (Z.leb_spec 0 e) as [L|L].
  - exists (Zpos m * 2 ^ e), 0, 1. pose proof (Z.pow_pos_nonneg 2 e ltac:(lia) L). split; [lia|]. split; [lia|]. split; [lia|]. split; [|split; [lia|]].
    + rewrite Z.mul_1_r, Z.add_0_r, inject_Z_mult, two_pow by exact L. unfold dyadic. change (inject_Z 1) with 1%Q. ring.
    + intros adj s _ H1. rewrite (H1 eq_refl eq_refl). unfold f_integral. destruct (Z.leb_spec 0 e); [|lia]. split; [|reflexivity]. split; [exact N|].
      unfold signed, dyadic. destruct s; [rewrite inject_Z_opp; change (Zneg m) with (- Zpos m); rewrite inject_Z_opp|]; rewrite inject_Z_mult, two_pow by exact L; ring.
  - destruct N as (He & Hm & _). set (d := 2 ^ (- e)). assert (D : 2 <= d). { unfold d. change 2 with (2 ^ 1) at 1. apply Z.pow_le_mono_r; lia. }
    exists (Zpos m / d), (Zpos m mod d), d. split; [lia|]. split; [apply Z.mod_pos_bound; lia|]. split; [apply Z.div_pos; lia|]. split; [|split; [intros _; split; [reflexivity|]; rewrite Z.mul_comm; apply Z.div_mod; lia|]].
    + rewrite Z.mul_comm, <- Z.div_mod by lia. unfold d. rewrite two_pow by lia. unfold dyadic. rewrite <- Qmult_assoc, <- two_plus. replace (e + - e) with 0 by lia. change (2 ^ 0)%Q with 1%Q. ring.
    + intros adj s Ha _. unfold f_integral. destruct (Z.leb_spec 0 e); [lia|]. fold d. cbv zeta. set (a := adj s (Zpos m / d) (Zpos m mod d) d) in *.
      assert (B : 0 <= a <= 2 ^ 53).
      { assert (Zpos m / d <= Zpos m / 2) by (apply Z.div_le_compat_l; lia). assert (Zpos m / 2 < 2 ^ 52) by (apply Z.div_lt_upper_bound; [lia|]; change (2 * 2 ^ 52) with (2 ^ 53); exact Hm).
        assert (0 <= Zpos m / d) by (apply Z.div_pos; lia). lia. }
      destruct (Z.eqb_spec a 0) as [E|E].
      * rewrite E. split; [destruct s; reflexivity|reflexivity].
      * assert (X : stands_for (binary_normalize prec emax (if s then - a else a) 0 s) (inject_Z (signed s a))).
        { apply normalize_double; [unfold signed, dyadic; change (2 ^ 0)%Q with 1%Q; destruct s; ring|]. apply int_double. unfold signed. destruct s; lia. }
        split; [exact X|]. destruct s; [apply (negative_of _ _ X)|apply (positive_of _ _ X)]; unfold signed; change 0%Q with (inject_Z 0); rewrite <- Zlt_Qlt; lia.
Qed.

(** The same in rational numbers. *)
Lemma parts_q : forall g A r d, 0 < d -> 0 <= r < d -> (g * inject_Z d == inject_Z (A * d + r))%Q ->
  (inject_Z A <= g < inject_Z (A + 1))%Q /\ (r = 0 -> (g == inject_Z A)%Q) /\ (r <> 0 -> (inject_Z A < g)%Q) /\
  (d <= 2 * r -> (inject_Z A + (1 # 2) <= g)%Q) /\ (2 * r < d -> (g < inject_Z A + (1 # 2))%Q).
Proof.
  intros g A r d Pd Pr G. rewrite inject_Z_plus, inject_Z_mult in G.
  assert (D : (0 < inject_Z d)%Q) by (change 0%Q with (inject_Z 0); rewrite <- Zlt_Qlt; exact Pd).
  assert (R0 : (0 <= inject_Z r)%Q) by (change 0%Q with (inject_Z 0); rewrite <- Zle_Qle; lia).
  assert (R1 : (inject_Z r < inject_Z d)%Q) by (rewrite <- Zlt_Qlt; lia).
  assert (LE : forall u, (u * inject_Z d <= g * inject_Z d)%Q -> (u <= g)%Q) by (intros u K; apply (Qmult_le_r _ _ _ D); exact K).
  assert (LT : forall u, (u * inject_Z d < g * inject_Z d)%Q -> (u < g)%Q) by (intros u K; apply (Qmult_lt_r _ _ _ D); exact K).
  assert (GT : forall u, (g * inject_Z d < u * inject_Z d)%Q -> (g < u)%Q) by (intros u K; apply (Qmult_lt_r _ _ _ D); exact K).
  rewrite inject_Z_plus. change (inject_Z 1) with 1%Q. split; [split|split; [|split; [|split]]].
  - apply LE. lra.
  - apply GT. rewrite Qmult_plus_distr_l. lra.
  - intros ->. apply (Qmult_inj_r _ _ (inject_Z d)); [lra|]. rewrite G. change (inject_Z 0) with 0%Q. ring.
  - intros Hr. apply LT. assert (0 < inject_Z r)%Q by (change 0%Q with (inject_Z 0); rewrite <- Zlt_Qlt; lia). lra.
  - intros Hr. apply LE. rewrite Qmult_plus_distr_l. rewrite Zle_Qle in Hr. rewrite inject_Z_mult in Hr. change (inject_Z 2) with 2%Q in Hr. lra.
  - intros Hr. apply GT. rewrite Qmult_plus_distr_l. rewrite Zlt_Qlt in Hr. rewrite inject_Z_mult in Hr. change (inject_Z 2) with 2%Q in Hr. lra.
Qed.

Lemma value_signed : forall (s : bool) m e (q : Q), (q == dyadic (if s then Zneg m else Zpos m) e)%Q -> (q == (if s then - dyadic (Zpos m) e else dyadic (Zpos m) e))%Q.
Proof. intros s m e q H. rewrite H. destruct s; [change (Zneg m) with (- Zpos m); apply dy_opp|reflexivity]. Qed.

Ltac intq := repeat rewrite ?inject_Z_plus, ?inject_Z_opp, ?inject_Z_mult in *; change (inject_Z 1) with 1%Q in *; change (inject_Z 0) with 0%Q in *.

Lemma floor_spec : forall x q, stands_for x q -> exists k, is_floor q k /\ stands_for (f_floor x) (inject_Z k).
Proof.
  intros x q H. destruct x as [s|s| |s m e]; try contradiction.
  - exists 0. simpl in H. split; [|reflexivity]. unfold is_floor. rewrite H. split; [discriminate|reflexivity].
  - destruct H as [N Hq]. apply value_signed in Hq. destruct (parts m e N) as (A & r & d & Pd & Pr & PA & G & _ & F).
    destruct (parts_q _ _ _ _ Pd Pr G) as ([B1 B2] & B3 & B4 & _ & _). set (g := dyadic (Zpos m) e) in *.
    specialize (F (fun s a r _ => if s && negb (r =? 0) then a + 1 else a) s). cbv beta in F.
    destruct F as [F _]; [destruct (s && _); auto|intros -> _; rewrite andb_false_r; reflexivity|].
    eexists. split; [|exact F]. unfold is_floor, signed. destruct s; cbn [andb negb].
    + destruct (Z.eqb_spec r 0) as [E|E]; cbn [negb]; [specialize (B3 E); intq; lra|specialize (B4 E); intq; lra].
    + intq. lra.
Qed.
Lemma ceil_spec : forall x q, stands_for x q -> exists k, is_ceiling q k /\ stands_for (f_ceil x) (inject_Z k).
Proof.
  intros x q H. destruct x as [s|s| |s m e]; try contradiction.
  - exists 0. simpl in H. split; [|reflexivity]. unfold is_ceiling. rewrite H. split; [reflexivity|discriminate].
  - destruct H as [N Hq]. apply value_signed in Hq. destruct (parts m e N) as (A & r & d & Pd & Pr & PA & G & _ & F).
    destruct (parts_q _ _ _ _ Pd Pr G) as ([B1 B2] & B3 & B4 & _ & _). set (g := dyadic (Zpos m) e) in *.
    specialize (F (fun s a r _ => if negb s && negb (r =? 0) then a + 1 else a) s). cbv beta in F.
    destruct F as [F _]; [destruct (_ && _); auto|intros -> _; rewrite andb_false_r; reflexivity|].
    eexists. split; [|exact F]. unfold is_ceiling, signed, Z.sub. destruct s; cbn [andb negb].
    + intq. change (inject_Z (-1)) with (-1)%Q. lra.
    + destruct (Z.eqb_spec r 0) as [E|E]; cbn [negb]; [specialize (B3 E); intq; change (inject_Z (-1)) with (-1)%Q; lra|specialize (B4 E); intq; change (inject_Z (-1)) with (-1)%Q; lra].
Qed.
Lemma trunc_spec : forall x q, stands_for x q -> stands_for (f_trunc x) (inject_Z (truncated q)).
Proof.
  intros x q H. destruct x as [s|s| |s m e]; try contradiction.
  - simpl in *. unfold truncated. destruct (Qle_bool 0 q); [rewrite (Qfloor_comp _ _ H)|rewrite (Qceiling_comp _ _ H)]; reflexivity.
  - destruct H as [N Hq]. apply value_signed in Hq. destruct (parts m e N) as (A & r & d & Pd & Pr & PA & G & _ & F).
    destruct (parts_q _ _ _ _ Pd Pr G) as ([B1 B2] & _ & _ & _ & _). assert (P : (0 < dyadic (Zpos m) e)%Q) by (apply dy_pos; lia). set (g := dyadic (Zpos m) e) in *.
    specialize (F (fun _ a _ _ => a) s). cbv beta in F. destruct F as [F _]; [left; reflexivity|reflexivity|].
    assert (T : truncated q = signed s A).
    { assert (FG : Qfloor g = A).
      { pose proof (Qfloor_le g) as L1. pose proof (Qlt_floor g) as L2. assert (A < Qfloor g + 1) by (rewrite Zlt_Qlt; lra). assert (Qfloor g < A + 1) by (rewrite Zlt_Qlt; lra). lia. }
      unfold truncated, signed. destruct s.
      - destruct (Qle_bool 0 q) eqn:E; [apply Qle_bool_iff in E; lra|]. rewrite (Qceiling_comp _ _ Hq). unfold Qceiling. rewrite (Qfloor_comp (- - g) g) by ring. rewrite FG. reflexivity.
      - destruct (Qle_bool 0 q) eqn:E; [|assert (X : Qle_bool 0 q = true) by (apply Qle_bool_iff; lra); congruence]. rewrite (Qfloor_comp _ _ Hq). exact FG. }
    rewrite T. exact F.
Qed.
Lemma round_spec : forall x q, stands_for x q -> exists k, is_rounded q k /\ stands_for (f_round x) (inject_Z k) /\ negative (f_round x) = negative x.
Proof.
  intros x q H. destruct x as [s|s| |s m e]; try contradiction.
  - exists 0. simpl in H. split; [|split; reflexivity]. unfold is_rounded. rewrite H. split; discriminate.
  - destruct H as [N Hq]. apply value_signed in Hq. destruct (parts m e N) as (A & r & d & Pd & Pr & PA & G & _ & F).
    destruct (parts_q _ _ _ _ Pd Pr G) as ([B1 B2] & _ & _ & B5 & B6). assert (P : (0 < dyadic (Zpos m) e)%Q) by (apply dy_pos; lia). set (g := dyadic (Zpos m) e) in *.
    specialize (F (fun _ a r d => if d <=? 2 * r then a + 1 else a) s). cbv beta in F.
    destruct F as [F FN]; [destruct (_ <=? _); auto|intros -> ->; reflexivity|].
    eexists. split; [|split; [exact F|exact FN]].
    assert (PA' : (0 <= inject_Z A)%Q) by (change 0%Q with (inject_Z 0); rewrite <- Zle_Qle; exact PA).
    set (k := if d <=? 2 * r then A + 1 else A) in *.
    assert (K : (- (1 # 2) <= g - inject_Z k < 1 # 2)%Q /\ (0 <= inject_Z k)%Q).
    { unfold k. destruct (Z.leb_spec d (2 * r)) as [E|E]; [specialize (B5 E)|specialize (B6 E)]; intq; lra. }
    destruct K as [[K1 K2] K3]. clearbody g k.
    assert (D : (Qabs (q - inject_Z (signed s k)) == Qabs (g - inject_Z k))%Q).
    { rewrite Hq. unfold signed. destruct s; [|reflexivity]. rewrite inject_Z_opp, <- Qabs_opp. apply Qabs_wd. ring. }
    assert (D2 : (Qabs q == g)%Q). { rewrite Hq. destruct s; [rewrite Qabs_opp|]; apply Qabs_pos; lra. }
    assert (D3 : (Qabs (inject_Z (signed s k)) == inject_Z k)%Q). { unfold signed. destruct s; [rewrite inject_Z_opp, Qabs_opp|]; apply Qabs_pos; exact K3. }
    unfold is_rounded. rewrite D, D2, D3. split; [apply Qabs_Qle_condition; lra|]. intros E.
    destruct (Qlt_le_dec (g - inject_Z k) 0) as [L|L]; [lra|]. rewrite Qabs_pos in E by exact L. lra.
Qed.

(** ** [approx] *)
Lemma error_stands : stands_for approx_error tolerance.
Proof. vm_compute. repeat split; try discriminate. right. discriminate. Qed.
Lemma abs_stands : forall x q, stands_for x q -> stands_for (f_abs x) (Qabs q).
Proof.
  intros x q H. destruct x as [s|s| |s m e]; try contradiction; simpl in *; [rewrite H; reflexivity|]. destruct H as [N H]. split; [exact N|]. rewrite H. exact (Qabs_dy s m e).
Qed.
Lemma tolerance_half : (tolerance < 1 # 2)%Q. Proof. reflexivity. Qed.
Lemma int_close : forall j k, (Qabs (inject_Z j - inject_Z k) < 1)%Q -> j = k.
Proof.
  intros j k H. apply Qabs_Qlt_condition in H. unfold Qminus in H. rewrite <- inject_Z_opp, <- inject_Z_plus in H. change 1%Q with (inject_Z 1) in H. rewrite <- inject_Z_opp, <- !Zlt_Qlt in H. lia.
Qed.
(** The difference between a double and its rounded value is a double. *)
Lemma round_close : forall x q, stands_for x q -> forall k, stands_for (f_round x) (inject_Z k) -> a_double (q - inject_Z k).
Proof.
  intros x q H k HK. destruct x as [s|s| |s m e]; try contradiction.
  - simpl in *. exists 0, 0. split; [reflexivity|]. split; [lia|]. rewrite dy_zero, H, HK. ring.
  - destruct H as [N Hq]. destruct (Z.leb_spec 0 e) as [L|L].
    + exists 0, 0. split; [reflexivity|]. split; [lia|]. rewrite dy_zero.
      assert (R : f_round (S754_finite s m e) = S754_finite s m e) by (unfold f_round, f_integral; destruct (Z.leb_spec 0 e); [reflexivity|lia]).
      rewrite R in HK. rewrite (stands_unique _ _ _ HK (conj N Hq)). ring.
    + pose proof N as (He & Hm & _). fold (sgn s m) in Hq. exists (sgn s m - k * 2 ^ (- e)), e. split; [|split; [exact He|]].
      2: { unfold Z.sub. rewrite dy_add, dy_opp, dy_shift by lia. replace (e + - e) with 0 by lia. rewrite Hq. unfold dyadic. change (2 ^ 0)%Q with 1%Q. ring. }
      destruct (parts m e N) as (A & r & d & Pd & Pr & PA & G & M & F). destruct (M L) as [M1 M2]. rewrite <- M1.
      specialize (F (fun _ a r d => if d <=? 2 * r then a + 1 else a) s). cbv beta in F.
      destruct F as [F _]; [destruct (_ <=? _); auto|intros -> ->; reflexivity|].
      pose proof (stands_unique _ _ _ F HK) as U. rewrite inject_Z_injective in U. rewrite <- U. rewrite sgn_opp. unfold signed.
      clear - Hm M2 Pr PA. destruct (Z.leb_spec d (2 * r)); destruct s; nia.
Qed.
Lemma approx_spec : forall x, snapped x (f_approx x).
Proof.
  intros x. split.
  - destruct x as [s|s| |s m e]; try discriminate; intros _; destruct s || idtac; reflexivity.
  - intros q H. destruct (round_spec x q H) as (k & [R1 R2] & K & KN).
    pose proof (round_close x q H k K) as D. pose proof (abs_stands _ _ (sub_exact _ _ _ _ H K D)) as S.
    assert (C : f_lt (f_abs (f_sub x (f_round x))) approx_error = true <-> (Qabs (q - inject_Z k) < tolerance)%Q).
    { unfold f_lt, SFltb. pose proof (cmp_exact _ _ _ _ S error_stands) as E. unfold f_cmp in E. rewrite E. destruct (Qabs (q - inject_Z k) ?= tolerance)%Q eqn:Q.
      - apply (proj2 (Qeq_alt _ _)) in Q. split; [discriminate|]. intros L. lra.
      - apply (proj2 (Qlt_alt _ _)) in Q. tauto.
      - apply (proj2 (Qgt_alt _ _)) in Q. split; [discriminate|]. intros L. lra. }
    unfold f_approx. split.
    + intros j Hj. assert (j = k) as ->.
      { apply int_close. pose proof tolerance_half as T. pose proof (Qabs_triangle (inject_Z j - q) (q - inject_Z k)) as TR.
        rewrite (Qabs_wd (inject_Z j - q + (q - inject_Z k)) (inject_Z j - inject_Z k)) in TR by ring. rewrite (Qabs_Qminus (inject_Z j) q) in TR. lra. }
      rewrite (proj2 C Hj). split; [exact K|exact KN].
    + intros A. destruct (f_lt _ _) eqn:E; [|reflexivity]. pose proof (proj1 C eq_refl) as L. specialize (A k). lra.
Qed.
(** What snapping gives is determined. *)
Lemma near_or_far : forall x q, stands_for x q -> (exists k, (Qabs (q - inject_Z k) < tolerance)%Q) \/ (forall k, (tolerance <= Qabs (q - inject_Z k))%Q).
Proof.
  intros x q H. destruct (round_spec x q H) as (k & [R _] & _). destruct (Qlt_le_dec (Qabs (q - inject_Z k)) tolerance) as [L|L]; [left; exists k; exact L|right].
  intros j. destruct (Qlt_le_dec (Qabs (q - inject_Z j)) tolerance) as [M|M]; [|exact M]. exfalso. assert (j = k) as ->; [|lra].
  apply int_close. pose proof tolerance_half as T. pose proof (Qabs_triangle (inject_Z j - q) (q - inject_Z k)) as TR.
  rewrite (Qabs_wd (inject_Z j - q + (q - inject_Z k)) (inject_Z j - inject_Z k)) in TR by ring. rewrite (Qabs_Qminus (inject_Z j) q) in TR. lra.
Qed.
Lemma snapped_unique : forall x y z q, stands_for x q -> snapped x y -> snapped x z -> y = z.
Proof.
  intros x y z q H [_ Y] [_ Z]. destruct (Y q H) as [Y1 Y2]. destruct (Z q H) as [Z1 Z2].
  destruct (near_or_far x q H) as [[k K]|K]; [|rewrite (Y2 K), (Z2 K); reflexivity].
  destruct (Y1 k K) as [A1 A2], (Z1 k K) as [B1 B2]. destruct (Z.eq_dec k 0) as [->|N].
  - assert (X : forall v, stands_for v (inject_Z 0) -> exists s, v = S754_zero s).
    { intros v V. destruct (int_is v 0 V) as [E|[_ E]]; [lia|exists false; exact E|exact E]. }
    destruct (X y A1) as (s & ->). destruct (X z B1) as (t & ->). simpl in A2, B2. congruence.
  - apply (double_unique _ _ (inject_Z k) A1 B1). change 0%Q with (inject_Z 0). rewrite inject_Z_injective. exact N.
Qed.
