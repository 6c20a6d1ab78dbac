(** * Doubles: comparison, division, remainder, square root, integers *)
From Coq Require Import List NArith ZArith QArith Qpower Qabs Qround Bool Lia Lqa.
From Coq Require Import Floats.SpecFloat.
From Verif Require Import ModelBase ModelFloat SpecDouble SpecDecimal ProofFloat ProofDouble ProofDecimal.
Local Open Scope Z_scope.

(** ** Comparison *)
Lemma dy_cmp : forall m n e, (dyadic m e ?= dyadic n e)%Q = (m ?= n).
Proof.
  intros m n e. pose proof (two_pos e) as P. destruct (Z.compare_spec m n) as [->|H|H].
  - apply (proj1 (Qeq_alt _ _)). reflexivity.
  - apply (proj1 (Qlt_alt _ _)). unfold dyadic. apply Qmult_lt_compat_r; [exact P|]. rewrite <- Zlt_Qlt. exact H.
  - apply (proj1 (Qgt_alt _ _)). unfold dyadic. apply Qmult_lt_compat_r; [exact P|]. rewrite <- Zlt_Qlt. exact H.
Qed.
Lemma sgn_lt : forall e m f n, (dyadic (Zneg m) e < dyadic (Zpos n) f)%Q.
Proof.
  intros e m f n. assert (A : (0 < dyadic (Zpos n) f)%Q) by (apply dy_pos; lia). assert (B : (0 < dyadic (Zpos m) e)%Q) by (apply dy_pos; lia).
  change (Zneg m) with (- Zpos m). rewrite dy_opp. lra.
Qed.
Lemma normal_lt : forall m e n f, normal_form m e -> normal_form n f -> e < f -> (dyadic (Zpos m) e < dyadic (Zpos n) f)%Q.
Proof.
  intros m e n f (He & Hm & _) (Hf & Hn & Nn) H. destruct Nn as [->|Nn]; [lia|].
  replace f with (e + (f - e)) by lia. rewrite <- dy_shift by lia. apply (proj2 (Qlt_alt _ _)). rewrite dy_cmp. apply Z.compare_lt_iff.
  assert (2 ^ 1 <= 2 ^ (f - e)) by (apply Z.pow_le_mono_r; lia). change (2 ^ 1) with 2 in *. nia.
Qed.
Lemma pos_cmp : forall m e n f, normal_form m e -> normal_form n f ->
  (dyadic (Zpos m) e ?= dyadic (Zpos n) f)%Q = match e ?= f with Lt => Lt | Gt => Gt | Eq => Pos.compare_cont Eq m n end.
Proof.
  intros m e n f Hm Hn. destruct (Z.compare_spec e f) as [<-|H|H].
  - rewrite dy_cmp. reflexivity.
  - apply (proj1 (Qlt_alt _ _)). apply normal_lt; assumption.
  - apply (proj1 (Qgt_alt _ _)). apply normal_lt; assumption.
Qed.
Lemma cmp_exact : forall x y p q, stands_for x p -> stands_for y q -> f_cmp x y = Some (p ?= q)%Q.
Proof.
  intros x y p q Hx Hy. unfold f_cmp, SFcompare. destruct x as [s|s| |s m e]; try contradiction; destruct y as [t|t| |t n f]; try contradiction; simpl in Hx, Hy.
  - f_equal. symmetry. apply (proj1 (Qeq_alt _ _)). rewrite Hx, Hy. reflexivity.
  - destruct Hy as [N Hy]. f_equal. symmetry. rewrite Hx, Hy. destruct t; [apply (proj1 (Qgt_alt _ _))|apply (proj1 (Qlt_alt _ _))].
    + change (Zneg n) with (- Zpos n). rewrite dy_opp. assert ((0 < dyadic (Zpos n) f)%Q) by (apply dy_pos; lia). lra.
    + apply dy_pos. lia.
  - destruct Hx as [N Hx]. f_equal. symmetry. rewrite Hx, Hy. destruct s; [apply (proj1 (Qlt_alt _ _))|apply (proj1 (Qgt_alt _ _))].
    + change (Zneg m) with (- Zpos m). rewrite dy_opp. assert ((0 < dyadic (Zpos m) e)%Q) by (apply dy_pos; lia). lra.
    + apply dy_pos. lia.
  - destruct Hx as [Nx Hx], Hy as [Ny Hy]. f_equal. rewrite Hx, Hy. pose proof (pos_cmp m e n f Nx Ny) as C. destruct s, t.
    + change (Zneg m) with (- Zpos m). change (Zneg n) with (- Zpos n). rewrite !dy_opp.
      assert (X : forall a b : Q, (- a ?= - b)%Q = CompOpp (a ?= b)%Q).
      { intros a b. destruct (a ?= b)%Q eqn:E; cbn [CompOpp]; [apply (proj2 (Qeq_alt _ _)) in E; apply (proj1 (Qeq_alt _ _)); lra|apply (proj2 (Qlt_alt _ _)) in E; apply (proj1 (Qgt_alt _ _)); lra|apply (proj2 (Qgt_alt _ _)) in E; apply (proj1 (Qlt_alt _ _)); lra]. }
      rewrite X, C. destruct (e ?= f); reflexivity.
    + symmetry. apply (proj1 (Qlt_alt _ _)). apply sgn_lt.
    + symmetry. apply (proj1 (Qgt_alt _ _)). apply sgn_lt.
    + rewrite C. destruct (e ?= f); reflexivity.
Qed.

(** ** Integers *)
Lemma int_double : forall z, Z.abs z <= 2 ^ 53 -> a_double (inject_Z z).
Proof.
  intros z H. destruct (Z.eq_dec (Z.abs z) (2 ^ 53)) as [E|E].
  - exists (Z.sgn z * 2 ^ 52), 1. split; [destruct z; simpl Z.sgn; lia|]. split; [lia|]. unfold dyadic. rewrite <- (two_pow 1), <- inject_Z_mult by lia.
    rewrite inject_Z_injective. change (2 ^ 1) with 2. destruct z; simpl Z.sgn; simpl Z.abs in E; lia.
  - exists z, 0. split; [lia|]. split; [lia|]. unfold dyadic. change (2 ^ 0)%Q with 1%Q. ring.
Qed.
Lemma of_Z_exact : forall z, a_double (inject_Z z) -> stands_for (f_of_Z z) (inject_Z z).
Proof. intros z H. unfold f_of_Z, f_of. apply normalize_double; [|exact H]. unfold dyadic. change (2 ^ 0)%Q with 1%Q. ring. Qed.
Lemma one_stands : stands_for f_one 1. Proof. apply (of_Z_exact 1). apply int_double. lia. Qed.
Lemma zero_stands : stands_for f_zero 0. Proof. reflexivity. Qed.
Lemma is_zero_exact : forall x p, stands_for x p -> (f_is_zero x = true <-> (p == 0)%Q).
Proof.
  intros x p H. destruct x as [s|s| |s m e]; try contradiction; simpl in *; [tauto|]. destruct H as [_ H]. split; [discriminate|]. rewrite H. intros Z.
  apply dy_is_zero in Z. destruct s; discriminate.
Qed.

(** ** Division *)
Lemma digits_mul : forall m n, Zpos (digits2_pos m) + Zpos (digits2_pos n) - 1 <= Zpos (digits2_pos (m * n)) <= Zpos (digits2_pos m) + Zpos (digits2_pos n).
Proof.
  intros m n. pose proof (digits_bounds m) as [A B]. pose proof (digits_bounds n) as [C D]. pose proof (digits_bounds (m * n)) as [X Y]. rewrite Pos2Z.inj_mul in *. split.
  - destruct (Z.le_gt_cases (Zpos (digits2_pos m) + Zpos (digits2_pos n) - 1) (Zpos (digits2_pos (m * n)))) as [L|L]; [exact L|exfalso].
    pose proof (Z.pow_le_mono_r 2 (Zpos (digits2_pos (m * n))) (Zpos (digits2_pos m) - 1 + (Zpos (digits2_pos n) - 1)) ltac:(lia) ltac:(lia)) as K.
    rewrite Z.pow_add_r in K by lia. pose proof (Z.mul_le_mono_nonneg _ _ _ _ (Z.pow_nonneg 2 (Zpos (digits2_pos m) - 1) ltac:(lia)) A (Z.pow_nonneg 2 (Zpos (digits2_pos n) - 1) ltac:(lia)) C). lia.
  - apply digits_le; [lia|]. rewrite Z.pow_add_r, Pos2Z.inj_mul by lia. apply Z.mul_lt_mono_nonneg; lia.
Qed.
Lemma location_exact : forall n, new_location n 0 = loc_Exact.
Proof. intros n. unfold new_location, new_location_even, new_location_odd. destruct (Z.even n); reflexivity. Qed.
Lemma div_core : forall m e n f M E, Zpos M < 2 ^ 53 -> -1074 <= E <= 971 -> (dyadic (Zpos m) e == dyadic (Zpos n) f * dyadic (Zpos M) E)%Q ->
  exists c e', SFdiv_core_binary prec emax (Zpos m) e (Zpos n) f = (Zpos c, e', loc_Exact) /\ (dyadic (Zpos c) e' == dyadic (Zpos M) E)%Q /\
    e' <= fexp prec emax (Zpos (digits2_pos c) + e').
Proof.
  intros m e n f M E HM HE H. rewrite <- dy_mul in H. change (Zpos n * Zpos M) with (Zpos (n * M)) in H. pose proof (magnitude _ _ _ _ H) as G.
  pose proof (digits_mul n M) as DM. pose proof (digits_le M 53 ltac:(lia) HM) as D53. unfold SFdiv_core_binary. cbn [Zdigits2].
  set (e' := Z.min (fexp prec emax (Zpos (digits2_pos m) + e - (Zpos (digits2_pos n) + f))) (e - f)).
  assert (L : e' <= E).
  { unfold e'. apply Z.le_trans with (fexp prec emax (Zpos (digits2_pos m) + e - (Zpos (digits2_pos n) + f))); [lia|]. unfold fexp, emin, prec, emax. lia. }
  assert (L2 : e' <= e - f) by (unfold e'; lia).
  assert (P : Zpos m * 2 ^ (e - f - e') = Zpos n * (Zpos M * 2 ^ (E - e'))).
  { apply (dy_inj _ _ (f + e')). rewrite dy_shift by lia. replace (f + e' + (e - f - e')) with e by lia. rewrite H, Z.mul_assoc, dy_shift by lia.
    replace (f + e' + (E - e')) with (f + E) by lia. reflexivity. }
  assert (C : exists c, Zpos M * 2 ^ (E - e') = Zpos c).
  { pose proof (Z.pow_pos_nonneg 2 (E - e') ltac:(lia) ltac:(lia)). destruct (Zpos M * 2 ^ (E - e')) as [|c|c] eqn:X; [lia|exists c; reflexivity|lia]. }
  destruct C as (c & C). rewrite C in P. exists c, e'.
  assert (S : match e - f - e' with Zpos _ => Z.shiftl (Zpos m) (e - f - e') | Z0 => Zpos m | Zneg _ => 0 end = Zpos n * Zpos c).
  { rewrite <- P. destruct (e - f - e') as [|q|q] eqn:Q; [rewrite Z.pow_0_r; lia|apply Z.shiftl_mul_pow2; lia|lia]. }
  assert (V : (dyadic (Zpos c) e' == dyadic (Zpos M) E)%Q) by (rewrite <- C, dy_shift by lia; replace (e' + (E - e')) with E by lia; reflexivity).
  split; [|split; [exact V|]].
  - rewrite S. pose proof (Z_div_mod (Zpos n * Zpos c) (Zpos n) ltac:(lia)) as DE. destruct (Z.div_eucl (Zpos n * Zpos c) (Zpos n)) as [a r]. destruct DE as [D1 D2].
    assert (r = 0) as -> by (apply (f_equal (fun z => z mod Zpos n)) in D1; rewrite (Z.mul_comm (Zpos n)), Z.mod_mul, Z.add_comm, Z.mul_comm, Z.mod_add, Z.mod_small in D1 by lia; lia). assert (a = Zpos c) as -> by nia. rewrite location_exact. reflexivity.
  - rewrite (magnitude _ _ _ _ V). apply Z.le_trans with (fexp prec emax (Zpos (digits2_pos m) + e - (Zpos (digits2_pos n) + f))); [unfold e'; lia|].
    unfold fexp. lia.
Qed.
Lemma sgn_opp : forall s m, sgn s m = if s then - Zpos m else Zpos m. Proof. intros [] m; reflexivity. Qed.
Lemma Qabs_dy : forall s m e, (Qabs (dyadic (sgn s m) e) == dyadic (Zpos m) e)%Q.
Proof.
  intros s m e. assert (P : (0 < dyadic (Zpos m) e)%Q) by (apply dy_pos; lia). rewrite sgn_opp. destruct s; [rewrite dy_opp, Qabs_opp|]; apply Qabs_pos; lra.
Qed.
Lemma double_abs : forall q s m e, a_double q -> (q == dyadic (sgn s m) e)%Q -> exists M E, Zpos M < 2 ^ 53 /\ -1074 <= E <= 971 /\ (q == dyadic (sgn s M) E)%Q.
Proof.
  intros q s m e (M & E & HM & HE & H) Hq.
  assert (X : exists M', M = sgn s M').
  { destruct s; cbn [sgn] in *.
    - assert (P : (0 < - q)%Q) by (rewrite Hq, <- dy_opp; apply dy_pos; lia). assert (PM : 0 < - M) by (apply (dy_pos (- M) E); rewrite dy_opp, <- H; exact P).
      destruct M as [|M|M]; try lia. exists M. reflexivity.
    - assert (P : (0 < q)%Q) by (rewrite Hq; apply dy_pos; lia). assert (PM : 0 < M) by (apply (dy_pos M E); rewrite <- H; exact P).
      destruct M as [|M|M]; try lia. exists M. reflexivity. }
  destruct X as (M' & ->). exists M', E. split; [destruct s; cbn [sgn] in HM; lia|]. split; [exact HE|exact H].
Qed.
Lemma div_exact : forall x y p q, stands_for x p -> stands_for y q -> ~ (q == 0)%Q -> a_double (p / q) -> stands_for (f_div x y) (p / q).
Proof.
  intros x y p q Hx Hy Hq Hd. unfold f_div, SFdiv. destruct x as [s|s| |s m e]; try contradiction; destruct y as [t|t| |t n f]; try contradiction; try (simpl in Hy; contradiction).
  - simpl in *. rewrite Hx. field. exact Hq.
  - destruct Hx as [Nx Hx], Hy as [Ny Hy]. fold (sgn s m) in Hx. fold (sgn t n) in Hy. pose proof Hd as HD. destruct Hd as (M & E & HM & HE & H).
    assert (Z : (p == q * dyadic M E)%Q) by (rewrite <- H; field; exact Hq).
    assert (ZA : (dyadic (Zpos m) e == dyadic (Zpos n) f * dyadic (Z.abs M) E)%Q).
    { rewrite <- (Qabs_dy s), <- (Qabs_dy t), <- Hx, <- Hy, Z, Qabs_Qmult. apply Qmult_comp; [reflexivity|]. destruct M as [|M|M]; simpl Z.abs.
      - rewrite dy_zero. reflexivity.
      - apply (Qabs_dy false).
      - apply (Qabs_dy true). }
    destruct (Z.abs M) as [|N|N] eqn:EN; [exfalso|clear EN|lia].
    + rewrite dy_zero in ZA. assert (P : (0 < dyadic (Zpos m) e)%Q) by (apply dy_pos; lia). rewrite ZA in P. lra.
    + destruct (div_core m e n f N E) as (c & e' & -> & V & L); [lia|exact HE|exact ZA|].
      assert (R : (p / q == dyadic (sgn (xorb s t) c) e')%Q).
      { assert (Ap : (p == (if s then -1 else 1) * dyadic (Zpos m) e)%Q) by (rewrite Hx, sgn_opp; destruct s; [rewrite dy_opp|]; ring).
        assert (Aq : (q == (if t then -1 else 1) * dyadic (Zpos n) f)%Q) by (rewrite Hy, sgn_opp; destruct t; [rewrite dy_opp|]; ring).
        assert (Pn : ~ (dyadic (Zpos n) f == 0)%Q) by (intros Q0; apply dy_is_zero in Q0; discriminate).
        rewrite Ap, Aq, ZA, sgn_opp. destruct s, t; cbn [xorb]; rewrite ?dy_opp, V; field; exact Pn. }
      apply aux_stands; [exact R|exact HD|exact L].
Qed.

(** ** Remainder: always exact *)
Lemma trunc_quot : forall a b, b <> 0 -> truncated (inject_Z a / inject_Z b) = Z.quot a b.
Proof.
  assert (F : forall a b, 0 <= a -> 0 < b -> Qfloor (inject_Z a / inject_Z b) = a / b).
  { intros a b Ha Hb. symmetry. rewrite Zdiv_Qdiv. reflexivity. }
  assert (P : forall a b, 0 <= a -> 0 < b -> (0 <= inject_Z a / inject_Z b)%Q).
  { intros a b Ha Hb. apply Qle_shift_div_l; [change 0%Q with (inject_Z 0); rewrite <- Zlt_Qlt; exact Hb|]. rewrite Qmult_0_l. change 0%Q with (inject_Z 0). rewrite <- Zle_Qle. exact Ha. }
  assert (T : forall q, (0 <= q)%Q -> truncated q = Qfloor q).
  { intros q Hq. unfold truncated. rewrite (proj2 (Qle_bool_iff 0 q) Hq). reflexivity. }
  assert (TN : forall q, (0 <= q)%Q -> truncated (- q) = - Qfloor q).
  { intros q Hq. unfold truncated. destruct (Qle_bool 0 (- q)) eqn:E.
    - apply Qle_bool_iff in E. assert (Z : (q == 0)%Q) by lra. rewrite Z. reflexivity.
    - unfold Qceiling. rewrite (Qfloor_comp (- - q) q) by ring. reflexivity. }
  assert (C : forall p q, (p == q)%Q -> truncated p = truncated q).
  { intros p q E. unfold truncated. rewrite E. destruct (Qle_bool 0 q); [apply Qfloor_comp; exact E|unfold Qceiling; rewrite E; reflexivity]. }
  assert (NZ : forall b, 0 < b -> ~ (inject_Z b == 0)%Q).
  { intros b Hb Z. change 0%Q with (inject_Z 0) in Z. rewrite inject_Z_injective in Z. lia. }
  intros a b Hb. destruct (Z.le_gt_cases 0 a) as [Ha|Ha]; destruct (Z.lt_ge_cases 0 b) as [Hb'|Hb'].
  - rewrite T, F, Z.quot_div_nonneg by (try apply P; lia). reflexivity.
  - rewrite (C _ (- (inject_Z a / inject_Z (- b)))%Q).
    + rewrite TN, F by (try apply P; lia). rewrite <- Z.quot_div_nonneg by lia. rewrite Z.quot_opp_r by lia. lia.
    + rewrite inject_Z_opp. field. intros Z. apply (NZ (- b)); [lia|]. rewrite inject_Z_opp, Z. reflexivity.
  - rewrite (C _ (- (inject_Z (- a) / inject_Z b))%Q).
    + rewrite TN, F by (try apply P; lia). rewrite <- Z.quot_div_nonneg by lia. rewrite Z.quot_opp_l by lia. lia.
    + rewrite inject_Z_opp. field. apply NZ. lia.
  - rewrite (C _ (inject_Z (- a) / inject_Z (- b))%Q).
    + rewrite T, F by (try apply P; lia). rewrite <- Z.quot_div_nonneg by lia. rewrite Z.quot_opp_opp by lia. reflexivity.
    + rewrite !inject_Z_opp. field. intros Z. apply (NZ (- b)); [lia|]. rewrite inject_Z_opp, Z. reflexivity.
Qed.
Lemma sgn_scale : forall s m e k, k <= e -> (dyadic (sgn s m) e == dyadic (if s then - (Zpos m * 2 ^ (e - k)) else Zpos m * 2 ^ (e - k)) k)%Q.
Proof.
  intros s m e k H. rewrite sgn_opp. destruct s; [rewrite !dy_opp|]; rewrite dy_shift by lia; replace (k + (e - k)) with e by lia; reflexivity.
Qed.
Lemma rem_exact : forall x y p q, stands_for x p -> stands_for y q -> ~ (q == 0)%Q ->
  stands_for (f_rem x y) (p - q * inject_Z (truncated (p / q))).
Proof.
  intros x y p q Hx Hy Hq. unfold f_rem. destruct x as [s|s| |s m e]; try contradiction; destruct y as [t|t| |t n f]; try contradiction; try (simpl in Hy; contradiction).
  - simpl in *. rewrite (truncated_comp (p / q) (inject_Z 0)) by (rewrite Hx; change (inject_Z 0) with 0%Q; field; exact Hq). rewrite truncated_int, Hx. change (inject_Z 0) with 0%Q. ring.
  - destruct Hx as [Nx Hx], Hy as [Ny Hy]. fold (sgn s m) in Hx. fold (sgn t n) in Hy. set (k := Z.min e f).
    rewrite (sgn_scale s m e k) in Hx by lia. rewrite (sgn_scale t n f k) in Hy by lia.
    set (A := Zpos m * 2 ^ (e - k)) in *. set (B := Zpos n * 2 ^ (f - k)) in *.
    assert (PA : 0 < A) by (unfold A; pose proof (Z.pow_pos_nonneg 2 (e - k) ltac:(lia) ltac:(lia)); lia).
    assert (PB : 0 < B) by (unfold B; pose proof (Z.pow_pos_nonneg 2 (f - k) ltac:(lia) ltac:(lia)); lia).
    set (a := if s then - A else A) in *. set (b := if t then - B else B) in *. assert (Nb : b <> 0) by (unfold b; destruct t; lia).
    assert (R : (p - q * inject_Z (truncated (p / q)) == dyadic (Z.rem a b) k)%Q).
    { assert (QQ : (p / q == inject_Z a / inject_Z b)%Q).
      { rewrite Hx, Hy. unfold dyadic. field. split; [|intros Z; pose proof (two_pos k); lra].
        intros Z. change 0%Q with (inject_Z 0) in Z. rewrite inject_Z_injective in Z. lia. }
      rewrite (truncated_comp _ _ QQ), trunc_quot by exact Nb.
      rewrite Hx, Hy, Z.rem_eq by exact Nb. unfold Z.sub. rewrite dy_add, dy_opp. unfold dyadic. rewrite inject_Z_mult. ring. }
    assert (M : (if s then - (A mod B) else A mod B) = Z.rem a b).
    { unfold a, b. destruct s, t; rewrite ?Z.rem_opp_r, ?Z.rem_opp_l by lia; rewrite Z.rem_mod_nonneg by lia; reflexivity. }
    rewrite M. apply normalize_double; [exact R|]. exists (Z.rem a b), k. split; [|split; [destruct Nx as (Nx & _), Ny as (Ny & _); lia|exact R]].
    assert (X : Z.abs (Z.rem a b) = A mod B).
    { rewrite <- M. pose proof (Z.mod_pos_bound A B PB). destruct s; lia. }
    rewrite X. pose proof (Z.mod_pos_bound A B PB) as MB. pose proof (Z.mod_le A B ltac:(lia) PB) as ML. destruct Nx as (_ & Nx & _), Ny as (_ & Ny & _).
    assert (K : k = e \/ k = f) by lia. destruct K as [K|K].
    + unfold A in ML at 2. rewrite K, Z.sub_diag in ML. change (2 ^ 0) with 1 in ML. fold A B in ML. lia.
    + unfold B in MB at 3. rewrite K, Z.sub_diag in MB. change (2 ^ 0) with 1 in MB. lia.
Qed.

(** ** One double for each number, but for the sign of zero *)
Lemma normal_unique : forall m e n f, normal_form m e -> normal_form n f -> (dyadic (Zpos m) e == dyadic (Zpos n) f)%Q -> m = n /\ e = f.
Proof.
  intros m e n f Hm Hn H. assert (C : e = f).
  { destruct (Z.compare_spec e f) as [E|L|L]; [exact E| |].
    - pose proof (normal_lt _ _ _ _ Hm Hn L). lra.
    - pose proof (normal_lt _ _ _ _ Hn Hm L). lra. }
  split; [|exact C]. subst f. apply dy_inj in H. injection H as ->. reflexivity.
Qed.
Lemma double_unique : forall x y p, stands_for x p -> stands_for y p -> ~ (p == 0)%Q -> x = y.
Proof.
  intros x y p Hx Hy Np. destruct x as [s|s| |s m e]; try contradiction; destruct y as [t|t| |t n f]; try contradiction.
  destruct Hx as [Nx Hx], Hy as [Ny Hy]. rewrite Hx in Hy. destruct s, t.
  - destruct (normal_unique m e n f Nx Ny) as [-> ->]; [|reflexivity]. change (Zneg m) with (- Zpos m) in Hy. change (Zneg n) with (- Zpos n) in Hy. rewrite !dy_opp in Hy. lra.
  - pose proof (sgn_lt e m f n). lra.
  - pose proof (sgn_lt f n e m). lra.
  - destruct (normal_unique m e n f Nx Ny) as [-> ->]; [exact Hy|reflexivity].
Qed.
Lemma stands_double : forall x p, stands_for x p -> a_double p.
Proof.
  intros x p H. destruct x as [s|s| |s m e]; try contradiction; simpl in H.
  - exists 0, 0. split; [lia|]. split; [lia|]. rewrite H, dy_zero. reflexivity.
  - destruct H as [(A & B & C) H]. exists (sgn s m), e. split; [destruct s; exact B|]. split; [exact A|exact H].
Qed.

(** ** Square root *)
Lemma sqrt_core : forall m e M E, Zpos M < 2 ^ 53 -> -1074 <= E <= 971 -> (dyadic (Zpos m) e == dyadic (Zpos M) E * dyadic (Zpos M) E)%Q ->
  exists c e', SFsqrt_core_binary prec emax (Zpos m) e = (Zpos c, e', loc_Exact) /\ (dyadic (Zpos c) e' == dyadic (Zpos M) E)%Q /\
    e' <= fexp prec emax (Zpos (digits2_pos c) + e').
Proof.
  intros m e M E HM HE H. rewrite <- dy_mul in H. change (Zpos M * Zpos M) with (Zpos (M * M)) in H. pose proof (magnitude _ _ _ _ H) as G.
  pose proof (digits_mul M M) as DM. pose proof (digits_le M 53 ltac:(lia) HM) as D53. unfold SFsqrt_core_binary. cbn [Zdigits2].
  assert (K : Z.div2 (Zpos (digits2_pos m) + e + 1) = Zpos (digits2_pos M) + E).
  { rewrite Z.div2_div. symmetry. apply (Z.div_unique_pos _ _ _ (Zpos (digits2_pos m) + e + 1 - 2 * (Zpos (digits2_pos M) + E))); lia. }
  rewrite K. set (e' := Z.min (fexp prec emax (Zpos (digits2_pos M) + E)) (Z.div2 e)).
  assert (L : e' <= E). { unfold e'. apply Z.le_trans with (fexp prec emax (Zpos (digits2_pos M) + E)); [lia|]. unfold fexp, emin, prec, emax. lia. }
  assert (L2 : 0 <= e - 2 * e'). { assert (e' <= Z.div2 e) by (unfold e'; lia). pose proof (Z.div2_odd e). destruct (Z.odd e); simpl Z.b2z in *; lia. }
  assert (C : exists c, Zpos M * 2 ^ (E - e') = Zpos c).
  { pose proof (Z.pow_pos_nonneg 2 (E - e') ltac:(lia) ltac:(lia)). destruct (Zpos M * 2 ^ (E - e')) as [|c|c] eqn:X; [lia|exists c; reflexivity|lia]. }
  destruct C as (c & C). exists c, e'.
  assert (V : (dyadic (Zpos c) e' == dyadic (Zpos M) E)%Q) by (rewrite <- C, dy_shift by lia; replace (e' + (E - e')) with E by lia; reflexivity).
  assert (P : Zpos m * 2 ^ (e - 2 * e') = Zpos c * Zpos c).
  { apply (dy_inj _ _ (e' + e')). rewrite dy_shift by lia. replace (e' + e' + (e - 2 * e')) with e by lia. rewrite dy_mul, V, H. apply (dy_mul (Zpos M) (Zpos M)). }
  assert (S : match e - 2 * e' with Zpos _ => Z.shiftl (Zpos m) (e - 2 * e') | Z0 => Zpos m | Zneg _ => 0 end = Zpos c * Zpos c).
  { rewrite <- P. destruct (e - 2 * e') as [|q|q] eqn:Q; [rewrite Z.pow_0_r; lia|apply Z.shiftl_mul_pow2; lia|lia]. }
  split; [|split; [exact V|]].
  - rewrite S. pose proof (Z.sqrtrem_spec (Zpos c * Zpos c) ltac:(lia)) as DE. destruct (Z.sqrtrem (Zpos c * Zpos c)) as [a r]. destruct DE as [D1 D2].
    assert (a = Zpos c) as -> by nia. assert (r = 0) as -> by nia. reflexivity.
  - rewrite (magnitude _ _ _ _ V). unfold e'. lia.
Qed.
Lemma sqrt_exact : forall x r, stands_for x (r * r) -> (0 <= r)%Q -> a_double r -> stands_for (f_sqrt x) r.
Proof.
  intros x r Hx Hr Hd. unfold f_sqrt, SFsqrt. destruct x as [s|s| |s m e]; try contradiction.
  - simpl in *. destruct (Qlt_le_dec 0 r) as [P|P]; [|lra]. pose proof (Qmult_lt_compat_r 0 r r P P) as K. rewrite Qmult_0_l in K. lra.
  - destruct Hx as [Nx Hx]. fold (sgn s m) in Hx. destruct s; [exfalso|].
    + assert (P : (0 < dyadic (Zpos m) e)%Q) by (apply dy_pos; lia). change (sgn true m) with (- Zpos m) in Hx. rewrite dy_opp in Hx.
      pose proof (Qmult_le_compat_r 0 r r Hr Hr) as K. rewrite Qmult_0_l in K. lra.
    + cbn [sgn] in Hx. destruct Hd as (M & E & HM & HE & H). pose proof Hx as Hx'. rewrite H in Hx'.
      assert (PM : 0 < M).
      { apply (dy_pos M E). rewrite <- H. destruct (Qlt_le_dec 0 r) as [P|P]; [exact P|]. assert (Z : (r == 0)%Q) by lra. rewrite Z in Hx.
        assert (P2 : (0 < dyadic (Zpos m) e)%Q) by (apply dy_pos; lia). lra. }
      destruct M as [|M|M]; try lia. destruct (sqrt_core m e M E) as (c & e' & -> & V & L); [lia|exact HE|symmetry; exact Hx'|].
      apply aux_stands; [cbn [sgn]; rewrite V; exact H|exists (Zpos M), E; auto|exact L].
Qed.

(** ** Integers once more *)
Lemma int_is : forall x z, stands_for x (inject_Z z) -> Z.abs z <= 2 ^ 53 -> x = f_of_Z z \/ (z = 0 /\ exists s, x = S754_zero s).
Proof.
  intros x z H B. destruct (Z.eq_dec z 0) as [->|N].
  - right. split; [reflexivity|]. destruct x as [s|s| |s m e]; try contradiction; [exists s; reflexivity|]. destruct H as [_ H]. change (inject_Z 0) with 0%Q in H. symmetry in H.
    apply dy_is_zero in H. destruct s; discriminate.
  - left. apply (double_unique _ _ (inject_Z z)); [exact H|apply of_Z_exact, int_double; exact B|]. change 0%Q with (inject_Z 0). rewrite inject_Z_injective. exact N.
Qed.
Lemma approx_int : forall x z, stands_for x (inject_Z z) -> Z.abs z <= 2 ^ 53 -> f_approx x = x.
Proof.
  intros x z H B. destruct (int_is x z H B) as [->|(_ & s & ->)]; [apply approx_of_Z; exact B|]. destruct s; reflexivity.
Qed.
Lemma stands_finite : forall x p, stands_for x p -> f_is_nan x = false /\ f_is_infinite x = false.
Proof. intros x p H. destruct x; try contradiction; split; reflexivity. Qed.
