(** * Operations on doubles are exact whenever the exact result is a double *)
From Coq Require Import List NArith ZArith QArith Qpower Qabs Bool Lia Lqa.
From Coq Require Import Floats.SpecFloat.
From Verif Require Import ModelBase ModelFloat SpecDouble ProofFloat.
Local Open Scope Z_scope.

Lemma two_pow : forall d, 0 <= d -> (inject_Z (2 ^ d) == 2 ^ d)%Q.
Proof. intros d Hd. change 2%Q with (inject_Z 2). apply Zpower_Qpower. exact Hd. Qed.
Lemma two_pos : forall e, (0 < 2 ^ e)%Q.
Proof. intros e. apply Qpower_0_lt. reflexivity. Qed.
Lemma two_plus : forall a b, (2 ^ (a + b) == 2 ^ a * 2 ^ b)%Q.
Proof. intros a b. apply Qpower_plus. discriminate. Qed.
Lemma dy_shift : forall m e d, 0 <= d -> (dyadic (m * 2 ^ d) e == dyadic m (e + d))%Q.
Proof. intros m e d Hd. unfold dyadic. rewrite inject_Z_mult, two_pow, two_plus by exact Hd. ring. Qed.
Lemma dy_inj : forall m n e, (dyadic m e == dyadic n e)%Q -> m = n.
Proof.
  intros m n e H. unfold dyadic in H. apply inject_Z_injective. apply Qmult_inj_r with (z := (2 ^ e)%Q); [|exact H].
  intros Z. pose proof (two_pos e) as P. rewrite Z in P. discriminate.
Qed.
Lemma dy_le : forall m e M E, e <= E -> (dyadic m e == dyadic M E)%Q -> m = M * 2 ^ (E - e).
Proof.
  intros m e M E Hle H. apply (dy_inj _ _ e). rewrite dy_shift by lia. replace (e + (E - e)) with E by lia. exact H.
Qed.
Lemma dy_zero : forall e, (dyadic 0 e == 0)%Q.
Proof. intros e. unfold dyadic. ring. Qed.
Lemma dy_opp : forall m e, (dyadic (- m) e == - dyadic m e)%Q.
Proof. intros m e. unfold dyadic. rewrite inject_Z_opp. ring. Qed.
Lemma dy_add : forall m n e, (dyadic (m + n) e == dyadic m e + dyadic n e)%Q.
Proof. intros m n e. unfold dyadic. rewrite inject_Z_plus. ring. Qed.
Lemma dy_mul : forall m n e f, (dyadic (m * n) (e + f) == dyadic m e * dyadic n f)%Q.
Proof. intros m n e f. unfold dyadic. rewrite inject_Z_mult, two_plus. ring. Qed.
Lemma dy_is_zero : forall m e, (dyadic m e == 0)%Q -> m = 0.
Proof. intros m e H. apply (dy_inj m 0 e). rewrite H, dy_zero. reflexivity. Qed.
Lemma dy_pos : forall m e, (0 < dyadic m e)%Q <-> 0 < m.
Proof.
  intros m e. pose proof (two_pos e) as P. unfold dyadic. split; intros H.
  - destruct (Z.lt_ge_cases 0 m) as [G|G]; [exact G|exfalso]. apply (Qlt_not_le _ _ H). rewrite <- (Qmult_0_l (2 ^ e)). apply Qmult_le_compat_r; [|lra].
    change 0%Q with (inject_Z 0). rewrite <- Zle_Qle. exact G.
  - rewrite <- (Qmult_0_l (2 ^ e)). apply Qmult_lt_compat_r; [exact P|]. change 0%Q with (inject_Z 0). rewrite <- Zlt_Qlt. exact H.
Qed.

(** Numbers with the same value have the same magnitude. *)
Lemma digits_unique : forall m d, 0 < d -> 2 ^ (d - 1) <= Zpos m < 2 ^ d -> Zpos (digits2_pos m) = d.
Proof.
  intros m d Hd [A B]. pose proof (digits_bounds m) as [C D]. pose proof (digits_le m d Hd B).
  destruct (Z.eq_dec (Zpos (digits2_pos m)) d) as [E|E]; [exact E|exfalso]. pose proof (Z.pow_le_mono_r 2 (Zpos (digits2_pos m)) (d - 1)). lia.
Qed.
Lemma digits_scale : forall m M d, 0 <= d -> Zpos m = Zpos M * 2 ^ d -> Zpos (digits2_pos m) = Zpos (digits2_pos M) + d.
Proof.
  intros m M d Hd H. apply digits_unique; [lia|]. pose proof (digits_bounds M) as [A B]. rewrite H. pose proof (Z.pow_pos_nonneg 2 d ltac:(lia) Hd).
  replace (Zpos (digits2_pos M) + d - 1) with (Zpos (digits2_pos M) - 1 + d) by lia. rewrite !Z.pow_add_r by lia. nia.
Qed.
Lemma magnitude : forall m e M E, (dyadic (Zpos m) e == dyadic (Zpos M) E)%Q -> Zpos (digits2_pos m) + e = Zpos (digits2_pos M) + E.
Proof.
  intros m e M E H. destruct (Z.le_ge_cases e E) as [L|L].
  - pose proof (dy_le _ _ _ _ L H) as G. rewrite (digits_scale _ _ _ (proj2 (Z.le_0_sub _ _) L) G). lia.
  - symmetry in H. pose proof (dy_le _ _ _ _ L H) as G. rewrite (digits_scale _ _ _ (proj2 (Z.le_0_sub _ _) L) G). lia.
Qed.

Lemma shr_exact : forall p c, iter_pos shr_1 p {| shr_m := Zpos c * 2 ^ Zpos p; shr_r := false; shr_s := false |} = {| shr_m := Zpos c; shr_r := false; shr_s := false |}.
Proof.
  assert (S1 : forall m, shr_1 {| shr_m := Zpos m * 2; shr_r := false; shr_s := false |} = {| shr_m := Zpos m; shr_r := false; shr_s := false |}).
  { intros m. rewrite Z.mul_comm. reflexivity. }
  assert (P : forall c d, exists x, Zpos c * 2 ^ Zpos d = Zpos x).
  { intros c d. pose proof (Z.pow_pos_nonneg 2 (Zpos d) ltac:(lia) ltac:(lia)). destruct (Zpos c * 2 ^ Zpos d) as [|x|x] eqn:E; [lia|exists x; reflexivity|lia]. }
  induction p as [p IH|p IH|]; intros c; cbn [iter_pos].
  - destruct (P c p) as (x & Hx). replace (Zpos c * 2 ^ Zpos p~1) with (Zpos x * 2 ^ Zpos p * 2).
    + destruct (P x p) as (y & Hy). rewrite Hy, S1, <- Hy, IH, <- Hx. apply IH.
    + rewrite <- Hx. replace (Zpos p~1) with (Zpos p + Zpos p + 1) by lia. rewrite !(Z.pow_add_r 2), Z.pow_1_r by lia. ring.
  - destruct (P c p) as (x & Hx). replace (Zpos c * 2 ^ Zpos p~0) with (Zpos x * 2 ^ Zpos p).
    + rewrite IH, <- Hx. apply IH.
    + rewrite <- Hx. replace (Zpos p~0) with (Zpos p + Zpos p) by lia. rewrite !(Z.pow_add_r 2) by lia. ring.
  - exact (S1 c).
Qed.

(** Rounding does not change a number that is a double. *)
Lemma normal_fexp : forall m e, normal_form m e <-> fexp prec emax (Zpos (digits2_pos m) + e) = e /\ e <= 971.
Proof.
  intros m e. pose proof (digits_bounds m) as [A B]. unfold normal_form, fexp, emin, prec, emax. split.
  - intros (He & Hm & Hn). split; [|lia]. pose proof (digits_le m 53 ltac:(lia) Hm). destruct Hn as [->|Hn]; [lia|].
    assert (Zpos (digits2_pos m) = 53) by (apply digits_unique; [lia|exact (conj Hn Hm)]). lia.
  - intros (F & He). assert (D : Zpos (digits2_pos m) <= 53) by lia. split; [lia|]. split.
    + pose proof (Z.pow_le_mono_r 2 (Zpos (digits2_pos m)) 53 ltac:(lia) D). lia.
    + destruct (Z.eq_dec e (-1074)) as [E|E]; [left; exact E|right]. replace (Zpos (digits2_pos m)) with 53 in A by lia. exact A.
Qed.
Lemma aux_double : forall s m e M E, Zpos M < 2 ^ 53 -> -1074 <= E <= 971 -> (dyadic (Zpos m) e == dyadic (Zpos M) E)%Q ->
  e <= fexp prec emax (Zpos (digits2_pos m) + e) ->
  exists m' e', binary_round_aux prec emax s (Zpos m) e loc_Exact = S754_finite s m' e' /\ normal_form m' e' /\ (dyadic (Zpos m') e' == dyadic (Zpos M) E)%Q.
Proof.
  intros s m e M E HM HE H Hlow. pose proof (magnitude _ _ _ _ H) as G. pose proof (digits_le M 53 ltac:(lia) HM) as DM.
  assert (Fin : forall m' e', normal_form m' e' ->
    (let '(mrs'', e'') := shr_fexp prec emax (Zpos m') e' loc_Exact in
     match shr_m mrs'' with Z0 => S754_zero s | Zpos q => if Zle_bool e'' (emax - prec) then S754_finite s q e'' else S754_infinity s | _ => S754_nan end) = S754_finite s m' e').
  { intros m' e' Hn. apply normal_fexp in Hn. destruct Hn as [Hn He]. unfold shr_fexp. cbn [shr_record_of_loc Zdigits2]. rewrite Hn, Z.sub_diag. cbn [shr shr_m].
    replace (e' <=? emax - prec) with true; [reflexivity|symmetry; apply Z.leb_le; unfold emax, prec; lia]. }
  unfold binary_round_aux. unfold shr_fexp at 1. cbn [shr_record_of_loc Zdigits2].
  assert (F : fexp prec emax (Zpos (digits2_pos m) + e) <= E) by (rewrite G; unfold fexp, emin, prec, emax; lia).
  destruct (fexp prec emax (Zpos (digits2_pos m) + e) - e) as [|q|q] eqn:Q; [| |lia].
  - assert (NF : normal_form m e) by (apply normal_fexp; lia).
    exists m, e. split; [|split; assumption]. cbn [shr shr_m loc_of_shr_record round_nearest_even]. apply Fin. exact NF.
  - assert (D : Zpos m = Zpos M * 2 ^ (E - e)) by (apply dy_le; [lia|exact H]).
    assert (C : exists c, Zpos m = Zpos c * 2 ^ Zpos q).
    { replace (E - e) with ((E - e - Zpos q) + Zpos q) in D by lia. rewrite Z.pow_add_r, Z.mul_assoc in D by lia.
      pose proof (Z.pow_pos_nonneg 2 (E - e - Zpos q) ltac:(lia) ltac:(lia)). destruct (Zpos M * 2 ^ (E - e - Zpos q)) as [|c|c] eqn:X; [lia|exists c; exact D|lia]. }
    destruct C as (c & C). assert (V : (dyadic (Zpos c) (e + Zpos q) == dyadic (Zpos M) E)%Q) by (rewrite <- H, C; symmetry; apply dy_shift; lia).
    assert (NF : normal_form c (e + Zpos q)) by (apply normal_fexp; rewrite (magnitude _ _ _ _ V), <- G; lia).
    exists c, (e + Zpos q). split; [|split; assumption]. rewrite C. cbn [shr]. rewrite shr_exact. cbn [shr_m loc_of_shr_record round_nearest_even].
    apply Fin. exact NF.
Qed.

Lemma round_double : forall s m e M E, Zpos M < 2 ^ 53 -> -1074 <= E <= 971 -> (dyadic (Zpos m) e == dyadic (Zpos M) E)%Q ->
  exists m' e', binary_round prec emax s m e = S754_finite s m' e' /\ normal_form m' e' /\ (dyadic (Zpos m') e' == dyadic (Zpos M) E)%Q.
Proof.
  intros s m e M E HM HE H. unfold binary_round, shl_align. destruct (fexp prec emax (Zpos (digits2_pos m) + e) - e) as [|q|q] eqn:Q.
  - apply aux_double; try assumption. lia.
  - apply aux_double; try assumption. lia.
  - apply aux_double; try assumption.
    + rewrite shift_value, dy_shift by lia. replace (fexp prec emax (Zpos (digits2_pos m) + e) + Zpos q) with e by lia. exact H.
    + rewrite digits_shift. replace (Zpos (digits2_pos m) + Zpos q + fexp prec emax (Zpos (digits2_pos m) + e)) with (Zpos (digits2_pos m) + e) by lia. lia.
Qed.

Lemma stands_comp : forall x p q, (p == q)%Q -> stands_for x p -> stands_for x q.
Proof.
  intros x p q E H. destruct x as [s|s| |s m e]; simpl in *; try contradiction.
  - rewrite <- E. exact H.
  - destruct H as [H1 H2]. split; [exact H1|]. rewrite <- E. exact H2.
Qed.
Lemma stands_unique : forall x p q, stands_for x p -> stands_for x q -> (p == q)%Q.
Proof. intros x p q Hp Hq. destruct x; simpl in *; try contradiction; [rewrite Hp, Hq; reflexivity|]. destruct Hp as [_ ->], Hq as [_ ->]. reflexivity. Qed.
Lemma double_comp : forall p q, (p == q)%Q -> a_double p -> a_double q.
Proof. intros p q E (m & e & A & B & C). exists m, e. split; [exact A|]. split; [exact B|]. rewrite <- E. exact C. Qed.

Lemma normalize_double : forall m e z q, (q == dyadic m e)%Q -> a_double q -> stands_for (binary_normalize prec emax m e z) q.
Proof.
  intros m e z q Hq (M & E & HM & HE & H). unfold binary_normalize. destruct m as [|m|m].
  - simpl. rewrite Hq, dy_zero. reflexivity.
  - assert (P : (0 < q)%Q) by (rewrite Hq; apply dy_pos; lia). assert (PM : 0 < M) by (apply (dy_pos M E); rewrite <- H; exact P).
    destruct M as [|M|M]; try lia. destruct (round_double false m e M E) as (m' & e' & -> & N & V); [lia|exact HE|rewrite <- Hq, H; reflexivity|].
    split; [exact N|]. rewrite V. exact H.
  - assert (P : (0 < - q)%Q) by (rewrite Hq, <- dy_opp; apply dy_pos; lia). assert (PM : 0 < - M) by (apply (dy_pos (- M) E); rewrite dy_opp, <- H; exact P).
    destruct M as [|M|M]; try lia. destruct (round_double true m e M E) as (m' & e' & -> & N & V); [lia|exact HE| |].
    + change (Zpos m) with (- Zneg m). change (Zpos M) with (- Zneg M). rewrite !dy_opp, <- Hq, H. reflexivity.
    + split; [exact N|]. change (Zneg m') with (- Zpos m'). rewrite dy_opp, V, <- dy_opp. exact H.
Qed.

Definition sgn (s : bool) (m : positive) : Z := if s then Zneg m else Zpos m.
Lemma cond_sgn : forall s m, cond_Zopp s (Zpos m) = sgn s m. Proof. intros [] m; reflexivity. Qed.
Lemma align_value : forall s m e k, k <= e -> (dyadic (sgn s (fst (shl_align m e k))) k == dyadic (sgn s m) e)%Q.
Proof.
  intros s m e k Hk. unfold shl_align. destruct (k - e) as [|q|q] eqn:Q; cbn [fst]; [replace k with e by lia; reflexivity|lia|].
  assert (G : sgn s (shift_pos q m) = sgn s m * 2 ^ Zpos q).
  { destruct s; cbn [sgn]; [change (Zneg (shift_pos q m)) with (- Zpos (shift_pos q m)); change (Zneg m) with (- Zpos m)|]; rewrite shift_value; ring. }
  rewrite G, dy_shift by lia. replace (k + Zpos q) with e by lia. reflexivity.
Qed.

Lemma add_exact : forall x y p q, stands_for x p -> stands_for y q -> a_double (p + q) -> stands_for (f_add x y) (p + q).
Proof.
  intros x y p q Hx Hy Hd. unfold f_add, SFadd. destruct x as [s|s| |s m e]; try contradiction; destruct y as [t|t| |t n f]; try contradiction.
  - simpl in Hx, Hy. destruct (Bool.eqb s t); simpl; rewrite Hx, Hy; reflexivity.
  - simpl in Hx. apply (stands_comp _ q); [rewrite Hx; ring|exact Hy].
  - simpl in Hy. apply (stands_comp _ p); [rewrite Hy; ring|exact Hx].
  - destruct Hx as [_ Hx], Hy as [_ Hy]. apply normalize_double; [|exact Hd].
    rewrite !cond_sgn, dy_add, !align_value by lia. rewrite Hx, Hy. reflexivity.
Qed.
Lemma neg_exact : forall x p, stands_for x p -> stands_for (f_neg x) (- p).
Proof.
  intros x p Hx. destruct x as [s|s| |s m e]; try contradiction; simpl in *.
  - rewrite Hx. reflexivity.
  - destruct Hx as [N Hx]. split; [exact N|]. rewrite Hx, <- dy_opp. destruct s; reflexivity.
Qed.
Lemma sub_exact : forall x y p q, stands_for x p -> stands_for y q -> a_double (p - q) -> stands_for (f_sub x y) (p - q).
Proof.
  intros x y p q Hx Hy Hd. unfold f_sub, SFsub. destruct x as [s|s| |s m e]; try contradiction; destruct y as [t|t| |t n f]; try contradiction.
  - simpl in Hx, Hy. destruct (Bool.eqb s (negb t)); simpl; rewrite Hx, Hy; reflexivity.
  - simpl in Hx. apply (stands_comp _ (- q)); [rewrite Hx; ring|]. apply (neg_exact (S754_finite t n f)). exact Hy.
  - simpl in Hy. apply (stands_comp _ p); [rewrite Hy; ring|exact Hx].
  - destruct Hx as [_ Hx], Hy as [_ Hy]. apply normalize_double; [|exact Hd].
    rewrite !cond_sgn. unfold Z.sub. rewrite dy_add, dy_opp, !align_value by lia. rewrite Hx, Hy. reflexivity.
Qed.

Lemma normal_low : forall m e n f, normal_form m e -> normal_form n f -> e + f <= fexp prec emax (Zpos (digits2_pos (m * n)) + (e + f)).
Proof.
  intros m e n f (He & Hm & Nm) (Hf & Hn & Nn). unfold fexp, emin, prec, emax.
  assert (G : forall a b, 2 ^ 52 <= Zpos a -> 53 <= Zpos (digits2_pos (a * b))).
  { intros a b Ha. pose proof (digits_bounds (a * b)) as [_ B]. destruct (Z.le_gt_cases 53 (Zpos (digits2_pos (a * b)))) as [L|L]; [exact L|exfalso].
    pose proof (Z.pow_le_mono_r 2 (Zpos (digits2_pos (a * b))) 52 ltac:(lia) ltac:(lia)). rewrite Pos2Z.inj_mul in *. pose proof (Pos2Z.is_pos b). nia. }
  destruct Nm as [->|Nm]; [destruct Nn as [->|Nn]; [lia|]|].
  - pose proof (G n m Nn) as K. rewrite Pos.mul_comm in K. lia.
  - pose proof (G m n Nm) as K. lia.
Qed.
Lemma aux_stands : forall s m e q, (q == dyadic (sgn s m) e)%Q -> a_double q -> e <= fexp prec emax (Zpos (digits2_pos m) + e) ->
  stands_for (binary_round_aux prec emax s (Zpos m) e loc_Exact) q.
Proof.
  intros s m e q Hq (M & E & HM & HE & H) L.
  assert (X : exists M', M = sgn s M').
  { destruct s; cbn [sgn] in *.
    - assert (P : (0 < - q)%Q) by (rewrite Hq, <- dy_opp; apply dy_pos; lia). assert (PM : 0 < - M) by (apply (dy_pos (- M) E); rewrite dy_opp, <- H; exact P).
      destruct M as [|M|M]; try lia. exists M. reflexivity.
    - assert (P : (0 < q)%Q) by (rewrite Hq; apply dy_pos; lia). assert (PM : 0 < M) by (apply (dy_pos M E); rewrite <- H; exact P).
      destruct M as [|M|M]; try lia. exists M. reflexivity. }
  destruct X as (M' & ->). assert (V : (dyadic (Zpos m) e == dyadic (Zpos M') E)%Q).
  { rewrite Hq in H. destruct s; cbn [sgn] in *; [|exact H]. change (Zneg m) with (- Zpos m) in H. change (Zneg M') with (- Zpos M') in H. rewrite !dy_opp in H. lra. }
  destruct (aux_double s m e M' E) as (m' & e' & -> & N & W); [destruct s; cbn [sgn] in HM; lia|exact HE|exact V|exact L|].
  split; [exact N|]. rewrite Hq. destruct s; cbn [sgn] in *; [change (Zneg m) with (- Zpos m); change (Zneg m') with (- Zpos m'); rewrite !dy_opp|]; rewrite V, W; reflexivity.
Qed.
Lemma mul_exact : forall x y p q, stands_for x p -> stands_for y q -> a_double (p * q) -> stands_for (f_mul x y) (p * q).
Proof.
  intros x y p q Hx Hy Hd. unfold f_mul, SFmul. destruct x as [s|s| |s m e]; try contradiction; destruct y as [t|t| |t n f]; try contradiction.
  - simpl in *. rewrite Hx. ring.
  - simpl in *. rewrite Hx. ring.
  - simpl in *. rewrite Hy. ring.
  - destruct Hx as [Nx Hx], Hy as [Ny Hy]. apply aux_stands; [|exact Hd|apply normal_low; assumption].
    rewrite Hx, Hy, <- dy_mul. destruct s, t; reflexivity.
Qed.
