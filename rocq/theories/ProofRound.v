(** * [SpecFloat] rounds correctly *)
From Coq Require Import List ZArith QArith Qabs Qround Qpower Bool Lia Lqa.
From Coq Require Import Floats.SpecFloat.
From Verif Require Import ModelBase ModelFloat SpecDouble SpecFunctions SpecRound ProofFloat ProofDouble ProofDouble2 ProofSnap.
Local Open Scope Z_scope.

(** ** Where a number lies between two integers *)
Definition between (m : Z) (l : location) (v : Q) : Prop :=
  match l with
  | loc_Exact => (v == inject_Z m)%Q
  | loc_Inexact Lt => (inject_Z m < v < inject_Z m + (1 # 2))%Q
  | loc_Inexact Eq => (v == inject_Z m + (1 # 2))%Q
  | loc_Inexact Gt => (inject_Z m + (1 # 2) < v < inject_Z m + 1)%Q
  end.
Definition lies (R : shr_record) (v : Q) : Prop := between (shr_m R) (loc_of_shr_record R) v.
Lemma between_comp : forall m l v v', (v == v')%Q -> between m l v -> between m l v'.
Proof. intros m l v v' E H. destruct l as [|[]]; simpl in *; rewrite <- E; exact H. Qed.
Lemma between_le : forall m l v, between m l v -> (inject_Z m <= v < inject_Z m + 1)%Q.
Proof. intros m l v H. destruct l as [|[]]; simpl in H; lra. Qed.
Lemma lies_of_loc : forall m l v, between m l v -> lies (shr_record_of_loc m l) v /\ shr_m (shr_record_of_loc m l) = m.
Proof. intros m l v H. destruct l as [|[]]; split; try reflexivity; exact H. Qed.

Lemma inject_xI : forall p, (inject_Z (Zpos p~1) == 2 * inject_Z (Zpos p) + 1)%Q.
Proof. intros p. rewrite Pos2Z.inj_xI, inject_Z_plus, inject_Z_mult. reflexivity. Qed.
Lemma inject_xO : forall p, (inject_Z (Zpos p~0) == 2 * inject_Z (Zpos p))%Q.
Proof. intros p. rewrite Pos2Z.inj_xO, inject_Z_mult. reflexivity. Qed.
Lemma pow_xO : forall n, 2 ^ Zpos n~0 = 2 ^ Zpos n * 2 ^ Zpos n.
Proof. intros n. rewrite Pos2Z.inj_xO, <- Z.pow_add_r by lia. f_equal. lia. Qed.
Lemma pow_xI : forall n, 2 ^ Zpos n~1 = 2 * (2 ^ Zpos n * 2 ^ Zpos n).
Proof. intros n. rewrite Pos2Z.inj_xI, <- Z.pow_add_r, <- Z.pow_succ_r by lia. f_equal. lia. Qed.
Lemma shr_1_lies : forall R v, 0 <= shr_m R -> lies R (v * 2) -> lies (shr_1 R) v /\ shr_m (shr_1 R) = shr_m R / 2.
Proof.
  intros [m r s] v Hm H. cbn [shr_m] in Hm. split.
  - destruct m as [|[p|p|]|p]; try lia; destruct r, s; unfold lies in *; cbn in *; rewrite ?inject_xI, ?inject_xO in H; change (inject_Z 0) with 0%Q in *; change (inject_Z 1) with 1%Q in *; lra.
  - destruct m as [|[p|p|]|p]; try lia; cbn [shr_1 shr_m]; try reflexivity.
    + rewrite Pos2Z.inj_xI. symmetry. rewrite Z.mul_comm, Z.div_add_l by lia. reflexivity.
    + rewrite Pos2Z.inj_xO. symmetry. rewrite Z.mul_comm. apply Z.div_mul. lia.
Qed.
Lemma iter_lies : forall n R v, 0 <= shr_m R -> lies R (v * inject_Z (2 ^ Zpos n)) -> lies (iter_pos shr_1 n R) v /\ shr_m (iter_pos shr_1 n R) = shr_m R / 2 ^ Zpos n.
Proof.
  assert (C : forall R v v', (v == v')%Q -> lies R v -> lies R v') by (intros R v v' E H; exact (between_comp _ _ _ _ E H)).
  assert (P : forall n, 0 < 2 ^ Zpos n) by (intros n; apply Z.pow_pos_nonneg; lia).
  induction n as [n IH|n IH|]; intros R v Hm H; cbn [iter_pos].
  - destruct (shr_1_lies R (v * inject_Z (2 ^ Zpos n) * inject_Z (2 ^ Zpos n)) Hm) as [H1 M1].
    { apply (C _ _ _) with (2 := H). rewrite pow_xI, !inject_Z_mult. change (inject_Z 2) with 2%Q. ring. }
    assert (N1 : 0 <= shr_m (shr_1 R)) by (rewrite M1; apply Z.div_pos; lia).
    destruct (IH _ _ N1 H1) as [H2 M2]. assert (N2 : 0 <= shr_m (iter_pos shr_1 n (shr_1 R))) by (rewrite M2; apply Z.div_pos; [exact N1|apply P]).
    destruct (IH _ _ N2 H2) as [H3 M3]. split; [exact H3|]. rewrite M3, M2, M1, !Z.div_div by (try apply Z.mul_pos_pos; auto; try lia; specialize (P n); lia). f_equal.
    rewrite pow_xI. ring.
  - destruct (IH R (v * inject_Z (2 ^ Zpos n))%Q Hm) as [H1 M1].
    { apply (C _ _ _) with (2 := H). rewrite pow_xO, !inject_Z_mult. ring. }
    assert (N1 : 0 <= shr_m (iter_pos shr_1 n R)) by (rewrite M1; apply Z.div_pos; [exact Hm|apply P]).
    destruct (IH _ _ N1 H1) as [H2 M2]. split; [exact H2|]. rewrite M2, M1, Z.div_div by (specialize (P n); lia). f_equal.
    rewrite pow_xO. ring.
  - apply shr_1_lies; [exact Hm|]. apply (C _ _ _) with (2 := H). reflexivity.
Qed.

(** ** The nearest integer *)
Lemma nearest_even : forall m l v, 0 <= m -> between m l v -> let k := round_nearest_even m l in
  (k = m \/ k = m + 1) /\ (Qabs (v - inject_Z k) <= 1 # 2)%Q /\ ((Qabs (v - inject_Z k) == 1 # 2)%Q -> Z.even k = true).
Proof.
  intros m l v Hm H. unfold round_nearest_even. destruct l as [|[]]; simpl in H; cbv zeta.
  - split; [auto|]. assert (E : (v - inject_Z m == 0)%Q) by lra. rewrite E. split; discriminate.
  - destruct (Z.even m) eqn:Ev.
    + split; [auto|]. assert (E : (v - inject_Z m == 1 # 2)%Q) by lra. rewrite E. split; [discriminate|auto].
    + split; [auto|]. rewrite inject_Z_plus. assert (E : (v - (inject_Z m + inject_Z 1) == - (1 # 2))%Q) by (change (inject_Z 1) with 1%Q; lra). rewrite E.
      split; [discriminate|]. intros _. rewrite Z.add_1_r, Z.even_succ, <- Z.negb_even, Ev. reflexivity.
  - split; [auto|]. rewrite Qabs_pos by lra. split; [lra|]. intros E. lra.
  - split; [auto|]. rewrite inject_Z_plus. change (inject_Z 1) with 1%Q. rewrite Qabs_neg by lra. split; [lra|]. intros E. lra.
Qed.
(** ... is at least as near as any other, strictly so unless it is even. *)
Lemma nearest_int : forall v k j, (Qabs (v - inject_Z k) <= 1 # 2)%Q -> j <> k ->
  (Qabs (v - inject_Z k) <= Qabs (v - inject_Z j))%Q /\ ((Qabs (v - inject_Z j) == Qabs (v - inject_Z k))%Q -> (Qabs (v - inject_Z k) == 1 # 2)%Q).
Proof.
  intros v k j H N. assert (D : (1 <= Qabs (inject_Z j - inject_Z k))%Q).
  { destruct (Qlt_le_dec (Qabs (inject_Z j - inject_Z k)) 1) as [L|L]; [|exact L]. apply int_close in L. congruence. }
  pose proof (Qabs_triangle (inject_Z j - v) (v - inject_Z k)) as T. rewrite (Qabs_wd (inject_Z j - v + (v - inject_Z k)) (inject_Z j - inject_Z k)) in T by ring.
  rewrite (Qabs_Qminus (inject_Z j) v) in T. split; [lra|]. intros E. lra.
Qed.

(** ** Rounding *)
Lemma two_mono : forall a b, a <= b -> (2 ^ a <= 2 ^ b)%Q.
Proof.
  intros a b H. replace b with (a + (b - a)) by lia. rewrite two_plus. pose proof (two_pos a) as P.
  assert (O : (1 <= 2 ^ (b - a))%Q). { rewrite <- two_pow by lia. change 1%Q with (inject_Z 1). rewrite <- Zle_Qle. pose proof (Z.pow_pos_nonneg 2 (b - a)). lia. }
  apply (Qmult_le_compat_r 1 (2 ^ (b - a)) (2 ^ a)) in O; [|lra]. lra.
Qed.
Lemma abs_scale : forall v j e, (Qabs (v * 2 ^ e - inject_Z j * 2 ^ e) == Qabs (v - inject_Z j) * 2 ^ e)%Q.
Proof.
  intros v j e. rewrite (Qabs_wd _ ((v - inject_Z j) * 2 ^ e)) by ring. rewrite Qabs_Qmult. rewrite (Qabs_pos (2 ^ e)); [reflexivity|]. pose proof (two_pos e). lra.
Qed.
Lemma digits_pow : forall m, 0 < m -> 2 ^ (Zdigits2 m - 1) <= m < 2 ^ Zdigits2 m /\ 0 < Zdigits2 m.
Proof. intros m H. destruct m as [|p|p]; try lia. cbn [Zdigits2]. pose proof (digits_bounds p). lia. Qed.
Notation fx := (fexp prec emax).
Lemma fx_def : forall e, fx e = Z.max (e - 53) (-1074). Proof. reflexivity. Qed.

Lemma first_shift : forall m e l g, 0 <= m -> e <= fx (Zdigits2 m + e) -> between m l (g * 2 ^ (- e)) -> exists R v1,
  shr_fexp prec emax m e l = (R, fx (Zdigits2 m + e)) /\ lies R v1 /\ (g == v1 * 2 ^ fx (Zdigits2 m + e))%Q /\ 0 <= shr_m R < 2 ^ 53 /\
  (fx (Zdigits2 m + e) = -1074 \/ 2 ^ 52 <= shr_m R) /\ -1074 <= fx (Zdigits2 m + e).
Proof.
  intros m e l g Hm He H. set (e1 := fx (Zdigits2 m + e)) in *. unfold shr_fexp. fold e1. destruct (lies_of_loc m l _ H) as [L M].
  assert (X : exists R, shr (shr_record_of_loc m l) e (e1 - e) = (R, e1) /\ lies R (g * 2 ^ (- e1)) /\ shr_m R = m / 2 ^ (e1 - e)).
  { destruct (e1 - e) as [|n|n] eqn:N; [| |lia].
    - exists (shr_record_of_loc m l). assert (e1 = e) as -> by lia. split; [reflexivity|]. split; [exact L|]. rewrite M, Z.pow_0_r, Z.div_1_r. reflexivity.
    - cbn [shr]. exists (iter_pos shr_1 n (shr_record_of_loc m l)). replace (e + Zpos n) with e1 by lia.
      destruct (iter_lies n (shr_record_of_loc m l) (g * 2 ^ (- e1))) as [I1 I2]; [lia| |rewrite M in I2; auto].
      apply (between_comp _ _ _ _) with (2 := L). rewrite two_pow by lia. rewrite <- Qmult_assoc, <- two_plus. replace (- e1 + Zpos n) with (- e) by lia. reflexivity. }
  destruct X as (R & X1 & X2 & X3). exists R, (g * 2 ^ (- e1))%Q. split; [exact X1|]. split; [exact X2|].
  assert (LOW : -1074 <= e1) by (unfold e1; rewrite fx_def; lia). split; [|split; [|split; [|exact LOW]]].
  - rewrite <- Qmult_assoc, <- two_plus. replace (- e1 + e1) with 0 by lia. change (2 ^ 0)%Q with 1%Q. ring.
  - rewrite X3. assert (P : 0 < 2 ^ (e1 - e)) by (apply Z.pow_pos_nonneg; lia). split; [apply Z.div_pos; lia|]. apply Z.div_lt_upper_bound; [exact P|].
    destruct (Z.eq_dec m 0) as [->|Nm]; [nia|]. destruct (digits_pow m ltac:(lia)) as [[_ D] D0]. apply Z.lt_le_trans with (1 := D). rewrite <- Z.pow_add_r by lia.
    apply Z.pow_le_mono_r; [lia|]. unfold e1. rewrite fx_def. lia.
  - rewrite X3. destruct (Z.eq_dec m 0) as [->|Nm].
    + left. unfold e1 in *. rewrite fx_def in *. cbn [Zdigits2] in *. lia.
    + destruct (digits_pow m ltac:(lia)) as [[D _] D0]. destruct (Z.eq_dec e1 (-1074)) as [E|E]; [left; exact E|right].
      assert (Q : e1 - e = Zdigits2 m - 53) by (unfold e1 in *; rewrite fx_def in *; lia). rewrite Q. apply Z.div_le_lower_bound; [apply Z.pow_pos_nonneg; lia|].
      rewrite <- Z.pow_add_r by lia. replace (Zdigits2 m - 53 + 52) with (Zdigits2 m - 1) by lia. exact D.
Qed.
Lemma second_shift : forall k e1, 0 < k <= 2 ^ 53 -> -1074 <= e1 -> (e1 = -1074 \/ 2 ^ 52 <= k) -> exists r s c e2,
  shr_fexp prec emax k e1 loc_Exact = ({| shr_m := Zpos c; shr_r := r; shr_s := s |}, e2) /\ Zpos c < 2 ^ 53 /\ (e2 = -1074 \/ 2 ^ 52 <= Zpos c) /\ -1074 <= e2 /\
  (dyadic (Zpos c) e2 == dyadic k e1)%Q /\ (Z.even k = true -> Z.even (Zpos c) = true) /\ ((k < 2 ^ 53 /\ e2 = e1) \/ (k = 2 ^ 53 /\ e2 = e1 + 1)).
Proof.
  intros k e1 Hk He Hlow. destruct (Z.eq_dec k (2 ^ 53)) as [E|E].
  - subst k. assert (D : Zdigits2 (2 ^ 53) = 54) by reflexivity. unfold shr_fexp. rewrite D, fx_def. replace (Z.max (54 + e1 - 53) (-1074) - e1) with 1 by lia.
    exists false, false, 4503599627370496%positive, (e1 + 1). split; [reflexivity|]. split; [reflexivity|]. split; [right; discriminate|]. split; [lia|]. split; [|split; [reflexivity|right; auto]].
    change (2 ^ 53) with (4503599627370496 * 2 ^ 1). rewrite dy_shift by lia. reflexivity.
  - destruct k as [|c|c]; try lia. unfold shr_fexp. cbn [Zdigits2]. assert (L : Zpos c < 2 ^ 53) by lia. pose proof (digits_le c 53 ltac:(lia) L) as D.
    assert (Z : fx (Zpos (digits2_pos c) + e1) - e1 = 0).
    { rewrite fx_def. destruct Hlow as [->|Hl]; [lia|]. rewrite (digits_unique c 53 ltac:(lia) (conj Hl L)). lia. }
    rewrite Z. exists false, false, c, e1. split; [reflexivity|]. split; [exact L|]. split; [exact Hlow|]. split; [exact He|]. split; [reflexivity|]. split; [auto|]. left. auto.
Qed.

Lemma aux_rounds_pos : forall m e l g, 0 <= m -> e <= fx (Zdigits2 m + e) -> between m l (g * 2 ^ (- e)) -> (0 <= g)%Q ->
  rounds g (binary_round_aux prec emax false m e l).
Proof.
  intros m e l g Hm He H Hg. destruct (first_shift m e l g Hm He H) as (R & v1 & S1 & L & G & B & Low & E0). unfold binary_round_aux. rewrite S1.
  set (e1 := fx (Zdigits2 m + e)) in *. clearbody e1. clear m e l Hm He H S1.
  destruct (nearest_even (shr_m R) (loc_of_shr_record R) v1 (proj1 B) L) as (K1 & K2 & K3). set (k := round_nearest_even (shr_m R) (loc_of_shr_record R)) in *.
  pose proof (between_le _ _ _ L) as [V1 V2]. set (m1 := shr_m R) in *. clearbody m1 k. clear L R.
  pose proof (two_pos e1) as T.
  assert (NEAR : forall p', a_double p' -> (Qabs (g - inject_Z k * 2 ^ e1) <= Qabs (g - p'))%Q /\
    (~ (p' == inject_Z k * 2 ^ e1)%Q -> (Qabs (g - p') == Qabs (g - inject_Z k * 2 ^ e1))%Q -> Z.even k = true)).
  { intros p' (M & E & HM & HE & HP). rewrite G, abs_scale. destruct (Z.le_gt_cases e1 E) as [LE|GT].
    - assert (P : (p' == inject_Z (M * 2 ^ (E - e1)) * 2 ^ e1)%Q).
      { rewrite HP. rewrite inject_Z_mult, two_pow by lia. unfold dyadic. rewrite <- Qmult_assoc, <- two_plus. replace (E - e1 + e1) with E by lia. reflexivity. }
      set (j := M * 2 ^ (E - e1)) in *. clearbody j. rewrite P, abs_scale. destruct (Z.eq_dec j k) as [->|N].
      + split; [apply Qle_refl|]. intros N. exfalso. apply N. reflexivity.
      + destruct (nearest_int v1 k j K2 N) as [N1 N2]. split; [apply Qmult_le_compat_r; [exact N1|lra]|]. intros _ Q. apply K3, N2. apply Qmult_inj_r in Q; [exact Q|lra].
    - destruct Low as [Low|Low]; [lia|].
      assert (A : (p' < inject_Z (2 ^ 52) * 2 ^ e1)%Q).
      { rewrite HP. apply Qlt_le_trans with (inject_Z (2 ^ 53) * 2 ^ E)%Q.
        - unfold dyadic. apply Qmult_lt_compat_r; [apply two_pos|]. rewrite <- Zlt_Qlt. lia.
        - change (2 ^ 53) with (2 ^ 52 * 2 ^ 1). rewrite inject_Z_mult, <- Qmult_assoc. rewrite two_pow by lia. rewrite (two_pow 1), <- two_plus by lia.
          pose proof (two_mono (1 + E) e1 ltac:(lia)) as TM. rewrite <- two_pow by lia. setoid_rewrite Qmult_comm at 1 2. apply Qmult_le_compat_r; [exact TM|discriminate]. }
      assert (V52 : (inject_Z (2 ^ 52) <= v1)%Q). { apply Qle_trans with (inject_Z m1); [rewrite <- Zle_Qle; exact Low|exact V1]. }
      assert (W : (inject_Z (2 ^ 52) * 2 ^ e1 <= v1 * 2 ^ e1)%Q) by (apply Qmult_le_compat_r; [exact V52|lra]).
      assert (S : (Qabs (v1 - inject_Z k) <= Qabs (v1 - inject_Z (2 ^ 52)))%Q).
      { destruct (Z.eq_dec (2 ^ 52) k) as [<-|N]; [apply Qle_refl|]. apply (nearest_int v1 k (2 ^ 52) K2 N). }
      apply (Qmult_le_compat_r _ _ (2 ^ e1)) in S; [|lra]. rewrite (Qabs_pos (v1 - inject_Z (2 ^ 52))) in S by lra. rewrite (Qabs_pos (v1 * 2 ^ e1 - p')) by lra.
      assert (ST : ((v1 - inject_Z (2 ^ 52)) * 2 ^ e1 == v1 * 2 ^ e1 - inject_Z (2 ^ 52) * 2 ^ e1)%Q) by ring. rewrite ST in S. split; [lra|]. intros _ Q. lra. }
  assert (VK : (inject_Z k - (1 # 2) <= v1 <= inject_Z k + (1 # 2))%Q) by (apply Qabs_Qle_condition in K2; lra).
  assert (TH : (overflow_threshold == (inject_Z (2 ^ 53) - (1 # 2)) * 2 ^ 971)%Q) by reflexivity.
  assert (SC : forall a b, (a <= b)%Q -> (a * 2 ^ e1 <= b * 2 ^ e1)%Q) by (intros a b Hab; apply Qmult_le_compat_r; [exact Hab|lra]).
  destruct (Z.eq_dec k 0) as [Z0|Z0].
  { subst k. assert (F : shr_m (fst (shr_fexp prec emax 0 e1 loc_Exact)) = 0).
    { unfold shr_fexp. cbn [Zdigits2]. rewrite fx_def. destruct (Z.max (0 + e1 - 53) (-1074) - e1) as [|n|n] eqn:N; try reflexivity. lia. }
    destruct (shr_fexp prec emax 0 e1 loc_Exact) as [R2 e2]. cbn [fst] in F. rewrite F.
    assert (Small : (g < overflow_threshold)%Q).
    { assert (E : e1 = -1074) by lia. rewrite G, E. change (inject_Z 0) with 0%Q in VK. apply Qle_lt_trans with ((1 # 2) * 2 ^ (-1074))%Q; [|reflexivity].
      apply Qmult_le_compat_r; [lra|]. apply Qlt_le_weak, two_pos. }
    split; [|split; intros Q; exfalso].
    - intros _. exists 0%Q. split; [reflexivity|]. assert (P0 : (inject_Z 0 * 2 ^ e1 == 0)%Q) by (change (inject_Z 0) with 0%Q; ring).
      split; [intros p' Hp'; destruct (NEAR p' Hp') as [N _]; rewrite P0 in N; exact N|]. intros; exact I.
    - lra.
    - assert (0 < overflow_threshold)%Q by reflexivity. lra. }
  assert (K : 0 < k <= 2 ^ 53) by lia. assert (Low' : e1 = -1074 \/ 2 ^ 52 <= k) by lia.
  destruct (second_shift k e1 K E0 Low') as (r & s & c & e2 & -> & C1 & C2 & C3 & C4 & C5 & C6). cbn [shr_m].
  change (emax - prec) with 971. destruct (Z.leb_spec e2 971) as [F|F].
  - split; [|split; intros Q; exfalso].
    + intros _. exists (inject_Z k * 2 ^ e1)%Q. split; [split; [split; [lia|split; [exact C1|exact C2]]|symmetry; exact C4]|]. split; [intros p' Hp'; apply (NEAR p' Hp')|].
      intros p' Hp' N Q. simpl. apply C5. apply (proj2 (NEAR p' Hp') N Q).
    + rewrite TH, G in Q. destruct C6 as [[C6 ->]|[C6 ->]].
      * destruct (Z.eq_dec e1 971) as [->|Ne].
        { apply (proj1 (Qmult_le_r _ _ _ T)) in Q. assert (KK : (inject_Z k <= inject_Z (2 ^ 53) - 1)%Q). { change (inject_Z (2 ^ 53) - 1)%Q with (inject_Z (2 ^ 53 - 1)). rewrite <- Zle_Qle. lia. }
          assert (KE : (inject_Z k == inject_Z (2 ^ 53 - 1))%Q). { change (inject_Z (2 ^ 53 - 1)) with (inject_Z (2 ^ 53) - 1)%Q. lra. }
          rewrite inject_Z_injective in KE. assert (EV : Z.even k = true). { apply K3. rewrite Qabs_pos by lra. lra. } rewrite KE in EV. discriminate. }
        assert (T2 : (2 ^ e1 <= 2 ^ 970)%Q) by (apply two_mono; lia).
        assert (U : (v1 <= inject_Z (2 ^ 53) - (1 # 2))%Q). { assert (KK : (inject_Z k <= inject_Z (2 ^ 53 - 1))%Q) by (rewrite <- Zle_Qle; lia). change (inject_Z (2 ^ 53 - 1)) with (inject_Z (2 ^ 53) - 1)%Q in KK. lra. }
        assert (U2 : ((inject_Z (2 ^ 53) - (1 # 2)) * 2 ^ e1 <= (inject_Z (2 ^ 53) - (1 # 2)) * 2 ^ 970)%Q). { setoid_rewrite Qmult_comm. apply Qmult_le_compat_r; [exact T2|discriminate]. }
        pose proof (SC _ _ U). assert ((inject_Z (2 ^ 53) - (1 # 2)) * 2 ^ 970 < (inject_Z (2 ^ 53) - (1 # 2)) * 2 ^ 971)%Q by reflexivity. lra.
      * assert (T2 : (2 ^ e1 <= 2 ^ 970)%Q) by (apply two_mono; lia). subst k.
        assert (U2 : ((inject_Z (2 ^ 53) + (1 # 2)) * 2 ^ e1 <= (inject_Z (2 ^ 53) + (1 # 2)) * 2 ^ 970)%Q). { setoid_rewrite Qmult_comm. apply Qmult_le_compat_r; [exact T2|discriminate]. }
        pose proof (SC _ _ (proj2 VK)). assert ((inject_Z (2 ^ 53) + (1 # 2)) * 2 ^ 970 < (inject_Z (2 ^ 53) - (1 # 2)) * 2 ^ 971)%Q by reflexivity. lra.
    + assert (0 < overflow_threshold)%Q by reflexivity. lra.
  - assert (Big : (overflow_threshold <= g)%Q).
    { rewrite TH, G. destruct C6 as [[C6 ->]|[C6 ->]].
      - assert (T2 : (2 ^ 972 <= 2 ^ e1)%Q) by (apply two_mono; lia). assert (V52 : (inject_Z (2 ^ 52) <= v1)%Q). { apply Qle_trans with (inject_Z m1); [rewrite <- Zle_Qle; lia|exact V1]. }
        pose proof (SC _ _ V52) as S. assert (U2 : (inject_Z (2 ^ 52) * 2 ^ 972 <= inject_Z (2 ^ 52) * 2 ^ e1)%Q). { setoid_rewrite Qmult_comm. apply Qmult_le_compat_r; [exact T2|discriminate]. }
        assert ((inject_Z (2 ^ 53) - (1 # 2)) * 2 ^ 971 < inject_Z (2 ^ 52) * 2 ^ 972)%Q by reflexivity. lra.
      - assert (T2 : (2 ^ 971 <= 2 ^ e1)%Q) by (apply two_mono; lia). subst k. pose proof (SC _ _ (proj1 VK)) as S.
        assert (U2 : ((inject_Z (2 ^ 53) - (1 # 2)) * 2 ^ 971 <= (inject_Z (2 ^ 53) - (1 # 2)) * 2 ^ e1)%Q). { setoid_rewrite Qmult_comm. apply Qmult_le_compat_r; [exact T2|discriminate]. } lra. }
    split; [|split; [reflexivity|]].
    + intros Q. rewrite Qabs_pos in Q by exact Hg. lra.
    + intros Q. assert (0 < overflow_threshold)%Q by reflexivity. lra.
Qed.
