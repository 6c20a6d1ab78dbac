(** * Rounding determines the result; signs and special values; square roots; errors *)
From Coq Require Import List ZArith QArith Qabs Qround Qpower Bool Lia Lqa.
From Coq Require Import Floats.SpecFloat.
From Verif Require Import ModelBase ModelFloat SpecDecimal SpecDouble SpecFunctions SpecRound ProofFloat ProofDouble ProofDouble2 ProofSnap ProofRound ProofRound2.
Local Open Scope Z_scope.

Lemma threshold_cases : forall q, (Qabs q < overflow_threshold)%Q \/ (overflow_threshold <= q)%Q \/ (q <= - overflow_threshold)%Q.
Proof.
  intros q. destruct (Qlt_le_dec (Qabs q) overflow_threshold) as [H|H]; [left; exact H|right].
  destruct (Qlt_le_dec q 0) as [S|S]; [right; rewrite Qabs_neg in H by lra; lra|left; rewrite Qabs_pos in H by lra; exact H].
Qed.
Lemma rounds_number : forall q x, rounds q x -> a_number x /\ x <> S754_nan.
Proof.
  intros q x (A & B & C). destruct (threshold_cases q) as [H|[H|H]].
  - destruct (A H) as (p & P & _). split; [intros _; exists p; exact P|intros ->; contradiction].
  - rewrite (B H). split; discriminate.
  - rewrite (C H). split; discriminate.
Qed.

(** ** Two different doubles that are equally near are not both even *)
Lemma next_double : forall m e, normal_form m e -> Z.even (Zpos m) = true -> a_double (dyadic (Zpos m + 1) e) /\ normal_form (m + 1) e.
Proof.
  intros m e (A & B & C) H. assert (N : Zpos m + 1 < 2 ^ 53). { assert (Zpos m <> 2 ^ 53 - 1) by (intros E; rewrite E in H; discriminate). lia. }
  split; [exists (Zpos m + 1), e; split; [lia|split; [exact A|reflexivity]]|]. split; [exact A|]. rewrite Pos2Z.inj_add. split; [exact N|]. lia.
Qed.
Lemma no_tie_pos : forall x y p p', stands_for x p -> stands_for y p' -> even_mantissa x -> even_mantissa y -> (0 <= p)%Q -> (p < p')%Q ->
  exists r, a_double r /\ (p < r < p')%Q.
Proof.
  intros x y p p' Hx Hy Ex Ey Hp H.
  destruct y as [t|t| |t n f]; try contradiction. { simpl in Hy. lra. }
  destruct Hy as [Ny Hy]. fold (sgn t n) in Hy. destruct t; [exfalso; cbn [sgn] in Hy; change (Zneg n) with (- Zpos n) in Hy; rewrite dy_opp in Hy; assert (0 < dyadic (Zpos n) f)%Q by (apply dy_pos; lia); lra|]. cbn [sgn] in Hy. simpl in Ey.
  assert (Step : forall k e r, 0 <= k -> e <= f -> (p == dyadic k e)%Q -> a_double (dyadic (k + 1) e) -> (r == dyadic (k + 1) e)%Q -> (p < r)%Q /\ (r <= p')%Q).
  { intros k e r Hk Hf P _ R. assert (V : (p' == dyadic (Zpos n * 2 ^ (f - e)) e)%Q) by (rewrite Hy, dy_shift by lia; replace (e + (f - e)) with f by lia; reflexivity).
    rewrite P, V in H. assert (L : k < Zpos n * 2 ^ (f - e)). { apply (proj1 (Qlt_alt _ _)) in H. rewrite dy_cmp in H. exact H. }
    split.
    - rewrite P, R. apply (proj2 (Qlt_alt _ _)). rewrite dy_cmp. apply Z.compare_lt_iff. lia.
    - rewrite V, R. apply (proj2 (Qle_alt _ _)). rewrite dy_cmp. intros C. apply Z.compare_gt_iff in C. lia. }
  destruct x as [s|s| |s m e]; try contradiction.
  - simpl in Hx. assert (D : a_double (dyadic (0 + 1) (-1074))) by (exists 1, (-1074); split; [lia|split; [lia|reflexivity]]).
    destruct (Step 0 (-1074) (dyadic 1 (-1074)) ltac:(lia) ltac:(destruct Ny; lia) ltac:(rewrite Hx, dy_zero; reflexivity) D ltac:(reflexivity)) as [S1 S2].
    exists (dyadic 1 (-1074)). split; [exact D|]. split; [exact S1|]. destruct (Qlt_le_dec (dyadic 1 (-1074)) p') as [G|G]; [exact G|exfalso].
    assert (E : (dyadic (Zpos 1) (-1074) == dyadic (Zpos n) f)%Q) by (rewrite <- Hy; lra).
    assert (N1 : normal_form 1 (-1074)) by (split; [lia|split; [lia|left; reflexivity]]). destruct (normal_unique _ _ _ _ N1 Ny E) as [<- _]. discriminate.
  - destruct Hx as [Nx Hx]. fold (sgn s m) in Hx. destruct s; [exfalso; cbn [sgn] in Hx; change (Zneg m) with (- Zpos m) in Hx; rewrite dy_opp in Hx; assert (0 < dyadic (Zpos m) e)%Q by (apply dy_pos; lia); lra|]. cbn [sgn] in Hx. simpl in Ex.
    destruct (next_double m e Nx Ex) as [D N1].
    assert (Le : e <= f). { destruct (Z.le_gt_cases e f) as [L|L]; [exact L|exfalso]. pose proof (normal_lt n f m e Ny Nx L). lra. }
    destruct (Step (Zpos m) e (dyadic (Zpos m + 1) e) ltac:(lia) Le Hx D ltac:(reflexivity)) as [S1 S2].
    exists (dyadic (Zpos m + 1) e). split; [exact D|]. split; [exact S1|]. destruct (Qlt_le_dec (dyadic (Zpos m + 1) e) p') as [G|G]; [exact G|exfalso].
    assert (E : (dyadic (Zpos (m + 1)) e == dyadic (Zpos n) f)%Q) by (rewrite <- Hy, Pos2Z.inj_add; lra).
    destruct (normal_unique _ _ _ _ N1 Ny E) as [<- _]. change (Z.even (Zpos (m + 1)) = true) in Ey. change (Z.even (Zpos m) = true) in Ex. rewrite Pos2Z.inj_add, Z.add_1_r, Z.even_succ, <- Z.negb_even, Ex in Ey. discriminate.
Qed.
Lemma even_neg : forall x, even_mantissa x -> even_mantissa (f_neg x). Proof. intros [s|s| |s m e] H; exact H. Qed.
Lemma zero_is_double : a_double 0. Proof. exists 0, 0. split; [lia|]. split; [lia|]. rewrite dy_zero. reflexivity. Qed.
Lemma no_tie : forall x y p p', stands_for x p -> stands_for y p' -> even_mantissa x -> even_mantissa y -> (p < p')%Q ->
  exists r, a_double r /\ (p < r < p')%Q.
Proof.
  intros x y p p' Hx Hy Ex Ey H. destruct (Qlt_le_dec p 0) as [N|N]; [|exact (no_tie_pos x y p p' Hx Hy Ex Ey N H)].
  destruct (Qlt_le_dec 0 p') as [M|M]; [exists 0%Q; split; [exact zero_is_double|lra]|].
  destruct (no_tie_pos (f_neg y) (f_neg x) (- p') (- p) (neg_exact _ _ Hy) (neg_exact _ _ Hx) (even_neg _ Ey) (even_neg _ Ex)) as (r & R & R1 & R2); [lra|lra|].
  exists (- r)%Q. split; [apply double_opp; exact R|lra].
Qed.
Lemma rounds_value : forall q x y p p', rounds q x -> rounds q y -> stands_for x p -> stands_for y p' -> (Qabs q < overflow_threshold)%Q -> (p == p')%Q.
Proof.
  intros q x y p p' (A & _) (B & _) Hx Hy H. destruct (A H) as (a & A1 & A2 & A3), (B H) as (b & B1 & B2 & B3).
  pose proof (stands_unique _ _ _ A1 Hx) as Ea. pose proof (stands_unique _ _ _ B1 Hy) as Eb. rewrite <- Ea, <- Eb. clear p p' Hx Hy Ea Eb.
  pose proof (A2 _ (stands_double _ _ B1)) as N1. pose proof (B2 _ (stands_double _ _ A1)) as N2. assert (E : (Qabs (q - a) == Qabs (q - b))%Q) by lra.
  destruct (Qeq_dec a b) as [Q|Q]; [exact Q|exfalso].
  assert (Ex : even_mantissa x) by (apply (A3 b (stands_double _ _ B1)); [intros Z; apply Q; symmetry; exact Z|symmetry; exact E]).
  assert (Ey : even_mantissa y) by (apply (B3 a (stands_double _ _ A1)); [exact Q|exact E]).
  assert (W : forall a b, (a < b)%Q -> (Qabs (q - a) == Qabs (q - b))%Q -> (forall p', a_double p' -> (Qabs (q - a) <= Qabs (q - p'))%Q) -> forall r, a_double r -> (a < r < b)%Q -> False).
  { clear. intros a b L E N r D R. specialize (N r D).
    assert (M : (q == (a + b) / 2)%Q).
    { destruct (Qlt_le_dec q a) as [X|X]; [rewrite (Qabs_neg (q - a)), (Qabs_neg (q - b)) in E by lra; lra|].
      destruct (Qlt_le_dec b q) as [Y|Y]; [rewrite (Qabs_pos (q - a)), (Qabs_pos (q - b)) in E by lra; lra|].
      rewrite (Qabs_pos (q - a)), (Qabs_neg (q - b)) in E by lra. setoid_replace ((a + b) / 2)%Q with ((a + b) * (1 # 2))%Q by reflexivity. lra. }
    assert (M' : (q == (a + b) * (1 # 2))%Q) by (rewrite M; reflexivity). rewrite (Qabs_pos (q - a)) in N by lra.
    destruct (Qlt_le_dec q r) as [X|X]; [rewrite (Qabs_neg (q - r)) in N by lra; lra|rewrite (Qabs_pos (q - r)) in N by lra; lra]. }
  destruct (Qlt_le_dec a b) as [L|L].
  - destruct (no_tie x y a b A1 B1 Ex Ey L) as (r & R & R'). exact (W a b L E A2 r R R').
  - assert (L' : (b < a)%Q) by (destruct (Qlt_le_dec b a) as [Z|Z]; [exact Z|exfalso; apply Q; lra]).
    destruct (no_tie y x b a B1 A1 Ey Ex L') as (r & R & R'). exact (W b a L' (Qeq_sym _ _ E) B2 r R R').
Qed.
Lemma stands_zero : forall x p, stands_for x p -> (p == 0)%Q -> exists s, x = S754_zero s.
Proof.
  intros x p H Z. destruct x as [s|s| |s m e]; try contradiction; [exists s; reflexivity|exfalso]. destruct H as [_ H]. rewrite H in Z. apply dy_is_zero in Z. destruct s; discriminate.
Qed.
Lemma same_double : forall x y p, stands_for x p -> stands_for y p -> negative x = negative y -> x = y.
Proof.
  intros x y p Hx Hy S. destruct (Qeq_dec p 0) as [Z|Z]; [|exact (double_unique x y p Hx Hy Z)].
  destruct (stands_zero x p Hx Z) as (s & ->), (stands_zero y p Hy Z) as (t & ->). simpl in S. rewrite S. reflexivity.
Qed.
Lemma rounds_unique : forall q x y, rounds q x -> rounds q y -> negative x = negative y -> x = y.
Proof.
  intros q x y A B S. destruct (threshold_cases q) as [H|[H|H]].
  - destruct (proj1 A H) as (p & P & _), (proj1 B H) as (p' & P' & _). pose proof (rounds_value q x y p p' A B P P' H) as E.
    apply (same_double x y p P); [|exact S]. apply (stands_comp _ p'); [symmetry; exact E|exact P'].
  - rewrite (proj1 (proj2 A) H), (proj1 (proj2 B) H). reflexivity.
  - rewrite (proj2 (proj2 A) H), (proj2 (proj2 B) H). reflexivity.
Qed.

(** ** Signs *)
Lemma aux_negative : forall s m e l g, 0 <= m -> e <= fx (Zdigits2 m + e) -> between m l (g * 2 ^ (- e)) -> (0 <= g)%Q -> negative (binary_round_aux prec emax s m e l) = s.
Proof.
  intros s m e l g Hm He H Hg. pose proof (aux_rounds s m e l g Hm He H Hg) as R. apply rounds_number in R. destruct R as [_ R]. revert R. unfold binary_round_aux.
  destruct (shr_fexp prec emax m e l) as [R1 e1]. destruct (shr_fexp prec emax _ e1 loc_Exact) as [R2 e2].
  destruct (shr_m R2); [reflexivity| |intros X; contradiction X; reflexivity]. destruct (e2 <=? emax - prec); reflexivity.
Qed.
Lemma round_negative : forall s m e, negative (binary_round prec emax s m e) = s.
Proof.
  intros s m e. pose proof (round_rounds s m e) as R. apply rounds_number in R. destruct R as [_ R]. revert R. unfold binary_round.
  destruct (shl_align m e (fexp prec emax (Zpos (digits2_pos m) + e))) as [m' e']. unfold binary_round_aux.
  destruct (shr_fexp prec emax (Zpos m') e' loc_Exact) as [R1 e1]. destruct (shr_fexp prec emax _ e1 loc_Exact) as [R2 e2].
  destruct (shr_m R2); [reflexivity| |intros X; contradiction X; reflexivity]. destruct (e2 <=? emax - prec); reflexivity.
Qed.
Lemma normalize_negative : forall m e z, negative (binary_normalize prec emax m e z) = match m with Z0 => z | Zpos _ => false | Zneg _ => true end.
Proof. intros [|m|m] e z; cbn [binary_normalize]; [reflexivity| |]; apply round_negative. Qed.
Lemma negative_sign : forall x p, stands_for x p -> ((0 < p)%Q -> negative x = false) /\ ((p < 0)%Q -> negative x = true).
Proof.
  intros x p H. destruct x as [s|s| |s m e]; try contradiction.
  - simpl in H. split; intros; lra.
  - destruct H as [_ H]. fold (sgn s m) in H. rewrite sgn_split in H. assert (P : (0 < dyadic (Zpos m) e)%Q) by (apply dy_pos; lia). simpl. destruct s; split; intros G; try reflexivity; lra.
Qed.
Lemma dy_sign : forall m e q, (q == dyadic m e)%Q -> ((0 < q)%Q -> 0 < m) /\ ((q < 0)%Q -> m < 0) /\ ((q == 0)%Q -> m = 0).
Proof.
  intros m e q H. split; [|split]; intros S; rewrite H in S.
  - apply dy_pos in S. exact S.
  - assert (0 < - m); [|lia]. apply (dy_pos _ e). rewrite dy_opp. lra.
  - apply dy_is_zero in S. exact S.
Qed.

Lemma sum_ieee : forall x y, ieee_sum x y (f_add x y).
Proof.
  intros x y. destruct x as [s|s| |s m e], y as [t|t| |t n f]; try reflexivity.
  - intros p q Hx Hy. split; [apply add_rounds; assumption|]. simpl in Hx, Hy. split; [intros; lra|]. split; [intros; lra|]. intros _. destruct s, t; reflexivity.
  - intros p q Hx Hy. split; [apply add_rounds; assumption|]. simpl in Hx. destruct (negative_sign _ _ Hy) as [N1 N2]. split; [intros L; apply N1; lra|]. split; [intros L; apply N2; lra|].
    intros Z. exfalso. destruct (stands_zero _ q Hy) as (u & U); [lra|discriminate].
  - intros p q Hx Hy. split; [apply add_rounds; assumption|]. simpl in Hy. destruct (negative_sign _ _ Hx) as [N1 N2]. split; [intros L; apply N1; lra|]. split; [intros L; apply N2; lra|].
    intros Z. exfalso. destruct (stands_zero _ p Hx) as (u & U); [lra|discriminate].
  - intros p q Hx Hy. split; [apply add_rounds; assumption|]. cbn [f_add SFadd]. unfold f_add, SFadd. rewrite normalize_negative.
    destruct Hx as [Nx Hx], Hy as [Ny Hy]. fold (sgn s m) in Hx. fold (sgn t n) in Hy. rewrite !cond_sgn. set (k := Z.min e f).
    assert (V : (p + q == dyadic (sgn s (fst (shl_align m e k)) + sgn t (fst (shl_align n f k))) k)%Q) by (rewrite dy_add, !align_value by lia; rewrite Hx, Hy; reflexivity).
    destruct (dy_sign _ _ _ V) as (D1 & D2 & D3). split; [|split].
    + intros L. specialize (D1 L). destruct (sgn s (fst (shl_align m e k)) + sgn t (fst (shl_align n f k))); [lia|reflexivity|lia].
    + intros L. specialize (D2 L). destruct (sgn s (fst (shl_align m e k)) + sgn t (fst (shl_align n f k))); [lia|lia|reflexivity].
    + intros L. specialize (D3 L). rewrite D3. destruct s, t; cbn [sgn] in D3; try reflexivity; lia.
Qed.
Lemma opposite_is : forall x, f_neg x = opposite x. Proof. intros [s|s| |s m e]; reflexivity. Qed.
Lemma sub_add : forall x y, f_sub x y = f_add x (opposite y).
Proof.
  intros x y. destruct x as [s|s| |s m e], y as [t|t| |t n f]; try reflexivity; try (destruct s, t; reflexivity).
Qed.
Lemma difference_ieee : forall x y, ieee_difference x y (f_sub x y).
Proof. intros x y. rewrite sub_add. apply sum_ieee. Qed.
Lemma product_ieee : forall x y, ieee_product x y (f_mul x y).
Proof.
  intros x y. destruct x as [s|s| |s m e], y as [t|t| |t n f]; try reflexivity; intros p q Hx Hy; (split; [apply mul_rounds; assumption|]).
  1-3: reflexivity.
  destruct Hx as [Nx _], Hy as [Ny _]. unfold f_mul, SFmul. assert (P : (0 < dyadic (Zpos (m * n)) (e + f))%Q) by (apply dy_pos; lia).
  apply (aux_negative _ _ _ _ (dyadic (Zpos (m * n)) (e + f))); [lia|apply normal_low; assumption|simpl; apply dy_back|lra].
Qed.
Lemma quotient_ieee : forall x y, zero_double y = false -> ieee_quotient x y (f_div x y).
Proof.
  intros x y H. destruct x as [s|s| |s m e], y as [t|t| |t n f]; try reflexivity; try discriminate; intros p q Hx Hy.
  - split; [|reflexivity]. apply div_rounds; [exact Hx|exact Hy|]. intros Z. destruct (stands_zero _ _ Hy Z) as (u & U). discriminate.
  - split; [apply div_rounds; [exact Hx|exact Hy|]; intros Z; destruct (stands_zero _ _ Hy Z) as (u & U); discriminate|].
    unfold f_div, SFdiv. destruct (div_core_rounds m e n f) as (a & e' & l & -> & A & B & C).
    assert (Pm : (0 < dyadic (Zpos m) e)%Q) by (apply dy_pos; lia). assert (Pn : (0 < dyadic (Zpos n) f)%Q) by (apply dy_pos; lia).
    apply (aux_negative _ _ _ _ (dyadic (Zpos m) e / dyadic (Zpos n) f)%Q); [exact A|exact B|exact C|]. apply Qlt_le_weak. unfold Qdiv. apply Qmult_lt_0_compat; [exact Pm|apply Qinv_lt_0_compat; exact Pn].
Qed.
Lemma remainder_ieee : forall x y, zero_double y = false -> ieee_remainder x y (f_rem x y).
Proof.
  intros x y H. destruct x as [s|s| |s m e], y as [t|t| |t n f]; try reflexivity; try discriminate; intros p q Hx Hy.
  - split; [|reflexivity]. apply rem_exact; [exact Hx|exact Hy|]. intros Z. destruct (stands_zero _ _ Hy Z) as (u & U). discriminate.
  - split; [apply rem_exact; [exact Hx|exact Hy|]; intros Z; destruct (stands_zero _ _ Hy Z) as (u & U); discriminate|].
    unfold f_rem. rewrite normalize_negative. set (k := Z.min e f).
    pose proof (Z.mod_pos_bound (Zpos m * 2 ^ (e - k)) (Zpos n * 2 ^ (f - k)) ltac:(pose proof (Z.pow_pos_nonneg 2 (f - k)); lia)) as B.
    destruct ((Zpos m * 2 ^ (e - k)) mod (Zpos n * 2 ^ (f - k))); destruct s; try reflexivity; lia.
Qed.

(** ** Determined results *)
Lemma sum_unique : forall x y z z', a_number x -> a_number y -> ieee_sum x y z -> ieee_sum x y z' -> z = z'.
Proof.
  intros x y z z' Nx Ny A B. destruct (finite x) eqn:Fx; [destruct (finite y) eqn:Fy|].
  - destruct (Nx Fx) as (p & P), (Ny Fy) as (q & Q).
    assert (G : forall z, ieee_sum x y z -> rounds (p + q) z /\ ((0 < p + q)%Q -> negative z = false) /\ ((p + q < 0)%Q -> negative z = true) /\ ((p + q == 0)%Q -> negative z = negative x && negative y)).
    { intros u U. destruct x; try discriminate; destruct y; try discriminate; exact (U p q P Q). }
    destruct (G z A) as (A1 & A2 & A3 & A4), (G z' B) as (B1 & B2 & B3 & B4). apply (rounds_unique (p + q)); [exact A1|exact B1|].
    destruct (Qlt_le_dec 0 (p + q)) as [L|L]; [rewrite A2, B2 by exact L; reflexivity|]. destruct (Qlt_le_dec (p + q) 0) as [M|M]; [rewrite A3, B3 by exact M; reflexivity|].
    rewrite A4, B4 by lra. reflexivity.
  - destruct x; try discriminate; destruct y; try discriminate; simpl in A, B; congruence.
  - destruct x; try discriminate; destruct y; simpl in A, B; congruence.
Qed.
Lemma opposite_number : forall x, a_number x -> a_number (opposite x).
Proof.
  intros x N F. destruct (N ltac:(destruct x; (exact F || discriminate F || reflexivity))) as (q & Q). exists (- q)%Q. rewrite <- opposite_is. apply neg_exact. exact Q.
Qed.
Lemma product_unique : forall x y z z', a_number x -> a_number y -> ieee_product x y z -> ieee_product x y z' -> z = z'.
Proof.
  intros x y z z' Nx Ny A B. destruct (finite x) eqn:Fx; [destruct (finite y) eqn:Fy|].
  - destruct (Nx Fx) as (p & P), (Ny Fy) as (q & Q).
    assert (G : forall z, ieee_product x y z -> rounds (p * q) z /\ negative z = xorb (negative x) (negative y)).
    { intros u U. destruct x; try discriminate; destruct y; try discriminate; exact (U p q P Q). }
    destruct (G z A) as (A1 & A2), (G z' B) as (B1 & B2). apply (rounds_unique (p * q)); [exact A1|exact B1|congruence].
  - destruct x; try discriminate; destruct y; try discriminate; simpl in A, B; congruence.
  - destruct x; try discriminate; destruct y; simpl in A, B; congruence.
Qed.
Lemma quotient_unique : forall x y z z', a_number x -> a_number y -> ieee_quotient x y z -> ieee_quotient x y z' -> z = z'.
Proof.
  intros x y z z' Nx Ny A B. destruct (finite x) eqn:Fx; [destruct (finite y) eqn:Fy|].
  - destruct (Nx Fx) as (p & P), (Ny Fy) as (q & Q).
    assert (G : forall z, ieee_quotient x y z -> rounds (p / q) z /\ negative z = xorb (negative x) (negative y)).
    { intros u U. destruct x; try discriminate; destruct y; try discriminate; exact (U p q P Q). }
    destruct (G z A) as (A1 & A2), (G z' B) as (B1 & B2). apply (rounds_unique (p / q)); [exact A1|exact B1|congruence].
  - destruct x; try discriminate; destruct y; try discriminate; simpl in A, B; congruence.
  - destruct x; try discriminate; destruct y; simpl in A, B; congruence.
Qed.
Lemma remainder_unique : forall x y z z', a_number x -> a_number y -> ieee_remainder x y z -> ieee_remainder x y z' -> z = z'.
Proof.
  intros x y z z' Nx Ny A B. destruct (finite x) eqn:Fx; [destruct (finite y) eqn:Fy|].
  - destruct (Nx Fx) as (p & P), (Ny Fy) as (q & Q).
    assert (G : forall z, ieee_remainder x y z -> stands_for z (p - q * inject_Z (truncated (p / q))) /\ negative z = negative x).
    { intros u U. destruct x; try discriminate; destruct y; try discriminate; exact (U p q P Q). }
    destruct (G z A) as (A1 & A2), (G z' B) as (B1 & B2). apply (same_double _ _ _ A1 B1). congruence.
  - destruct x; try discriminate; destruct y; try discriminate; simpl in A, B; congruence.
  - destruct x; try discriminate; destruct y; simpl in A, B; congruence.
Qed.
(** The results are numbers again. *)
Lemma op_number : forall x y z, a_number x -> a_number y -> ieee_sum x y z \/ ieee_difference x y z \/ ieee_product x y z \/ ieee_quotient x y z \/ ieee_remainder x y z -> a_number z.
Proof.
  assert (S : forall x y z, a_number x -> a_number y -> ieee_sum x y z -> a_number z).
  { intros x y z Nx Ny A. destruct (finite x) eqn:Fx; [destruct (finite y) eqn:Fy|].
    - destruct (Nx Fx) as (p & P), (Ny Fy) as (q & Q). destruct x; try discriminate; destruct y; try discriminate; apply (rounds_number (p + q)); apply (A p q P Q).
    - destruct x; try discriminate; destruct y; try discriminate; simpl in A; subst z; try exact Nx; try exact Ny; discriminate.
    - destruct x as [s|s| |s m e]; try discriminate; destruct y as [t|t| |t n f]; simpl in A; subst z; try exact Nx; try exact Ny; try destruct (eqb s t); discriminate. }
  intros x y z Nx Ny [A|[A|[A|[A|A]]]].
  - exact (S x y z Nx Ny A).
  - exact (S x (opposite y) z Nx (opposite_number y Ny) A).
  - destruct (finite x) eqn:Fx; [destruct (finite y) eqn:Fy|].
    + destruct (Nx Fx) as (p & P), (Ny Fy) as (q & Q). destruct x; try discriminate; destruct y; try discriminate; apply (rounds_number (p * q)); apply (A p q P Q).
    + destruct x; try discriminate; destruct y; try discriminate; simpl in A; subst z; discriminate.
    + destruct x; try discriminate; destruct y; simpl in A; subst z; discriminate.
  - destruct (finite x) eqn:Fx; [destruct (finite y) eqn:Fy|].
    + destruct (Nx Fx) as (p & P), (Ny Fy) as (q & Q). destruct x; try discriminate; destruct y; try discriminate; apply (rounds_number (p / q)); apply (A p q P Q).
    + destruct x; try discriminate; destruct y; try discriminate; simpl in A; subst z; intros F; try discriminate; (exists 0%Q; reflexivity).
    + destruct x; try discriminate; destruct y; simpl in A; subst z; discriminate.
  - destruct (finite x) eqn:Fx; [destruct (finite y) eqn:Fy|].
    + destruct (Nx Fx) as (p & P), (Ny Fy) as (q & Q). intros _. exists (p - q * inject_Z (truncated (p / q)))%Q. destruct x; try discriminate; destruct y; try discriminate; apply (A p q P Q).
    + destruct x; try discriminate; destruct y; try discriminate; simpl in A; subst z; try exact Nx; discriminate.
    + destruct x; try discriminate; destruct y; simpl in A; subst z; discriminate.
Qed.

(** ** Square roots *)
(** Between a number whose square is below [q] and the root of [q] there is another one. *)
Lemma dense_below : forall a q, (0 <= a)%Q -> (a * a < q)%Q -> exists v, (a < v)%Q /\ (v * v < q)%Q.
Proof.
  intros a q Ha H. set (d := (q - a * a)%Q). assert (Hd : (0 < d)%Q) by (unfold d; lra).
  set (t := (d / (2 * a + 1 + d))%Q). assert (Den : (0 < 2 * a + 1 + d)%Q) by lra.
  assert (T : (t * (2 * a + 1 + d) == d)%Q) by (unfold t; field; lra).
  assert (T0 : (0 < t)%Q) by (unfold t, Qdiv; apply Qmult_lt_0_compat; [exact Hd|apply Qinv_lt_0_compat; exact Den]).
  assert (T1 : (t < 1)%Q). { destruct (Qlt_le_dec t 1) as [L|L]; [exact L|exfalso]. assert ((1 * (2 * a + 1 + d) <= t * (2 * a + 1 + d))%Q) by (apply Qmult_le_compat_r; lra). lra. }
  exists (a + t)%Q. split; [lra|]. assert (TT : (t * t < t)%Q) by (assert ((t * t < 1 * t)%Q) by (apply Qmult_lt_compat_r; lra); lra).
  assert (TD : (0 < t * d)%Q) by (apply Qmult_lt_0_compat; assumption). assert (E : (q == a * a + t * (2 * a + 1 + d))%Q) by (rewrite T; unfold d; ring). rewrite E. 
  assert (X : ((a + t) * (a + t) == a * a + 2 * (a * t) + t * t)%Q) by ring. rewrite X. assert (Y : (t * (2 * a + 1 + d) == 2 * (a * t) + t + t * d)%Q) by ring. rewrite Y. lra.
Qed.
Lemma dense_above : forall a q, (0 < a)%Q -> (0 < q)%Q -> (q < a * a)%Q -> exists v, (0 < v)%Q /\ (v < a)%Q /\ (q < v * v)%Q.
Proof.
  intros a q Ha Hq H. assert (I : (q / a < a)%Q).
  { apply (Qmult_lt_r _ _ a Ha). setoid_replace (q / a * a)%Q with q by (field; lra). exact H. }
  (* v = (a + q / a) / 2 *)
  exists ((a + q / a) * (1 # 2))%Q. assert (P : (0 < q / a)%Q) by (unfold Qdiv; apply Qmult_lt_0_compat; [exact Hq|apply Qinv_lt_0_compat; exact Ha]).
  split; [lra|]. split; [lra|]. assert (D : (0 < (a - q / a) * (a - q / a))%Q) by (apply Qmult_lt_0_compat; lra).
  assert (E : ((a + q / a) * (1 # 2) * ((a + q / a) * (1 # 2)) == q + (1 # 4) * ((a - q / a) * (a - q / a)))%Q) by (field; lra). rewrite E. lra.
Qed.
Lemma square_le : forall a b, (0 <= a)%Q -> (a <= b)%Q -> (a * a <= b * b)%Q.
Proof. intros a b Ha H. nra. Qed.
Lemma square_lt : forall a b, (0 <= a)%Q -> (0 <= b)%Q -> (a * a < b * b)%Q -> (a < b)%Q.
Proof. intros a b Ha Hb H. destruct (Qlt_le_dec a b) as [L|L]; [exact L|exfalso]. pose proof (square_le b a Hb L). lra. Qed.
Lemma class_root : forall x q lo hi r, (0 <= lo)%Q -> (lo * lo < q)%Q -> (q < hi * hi)%Q -> (0 < hi <= dyadic 1 513)%Q -> (forall g, (lo < g < hi)%Q -> rounds g x) -> stands_for x r -> (0 <= r)%Q ->
  root_rounds q x.
Proof.
  intros x q lo hi r Hlo Lq Hq Hhi R Sx Hr. exists r. split; [exact Sx|]. split; [exact Hr|].
  assert (Q0 : (0 < q)%Q) by (pose proof (square_le 0 lo (Qle_refl 0) Hlo); lra).
  assert (G : forall v, (lo < v < hi)%Q -> forall r', a_double r' -> (Qabs (v - r) <= Qabs (v - r'))%Q).
  { intros v Hv r' D. assert (Small : (dyadic 1 513 < overflow_threshold)%Q) by reflexivity. destruct (R v Hv) as (A & _ & _). destruct A as (p & P1 & P2 & _); [rewrite Qabs_pos by lra; lra|].
    rewrite (stands_unique _ _ _ Sx P1). apply P2. exact D. }
  split.
  - intros r' D L. setoid_replace ((r + r') / 2)%Q with ((r + r') * (1 # 2))%Q by reflexivity. set (c := ((r + r') * (1 # 2))%Q). assert (C0 : (0 <= c)%Q) by (unfold c; lra).
    destruct (Qlt_le_dec (c * c) q) as [B|B]; [exfalso|exact B].
    assert (X : exists a, (0 <= a)%Q /\ (c <= a)%Q /\ (lo <= a)%Q /\ (a * a < q)%Q).
    { destruct (Qlt_le_dec c lo) as [Y|Y]; [exists lo|exists c]; repeat split; try assumption; try lra. }
    destruct X as (a & A1 & A2 & A3 & A4). destruct (dense_below a q A1 A4) as (v & V1 & V2).
    assert (V3 : (v < hi)%Q) by (apply square_lt; lra). pose proof (G v ltac:(lra) r' D) as N. rewrite (Qabs_pos (v - r)) in N by (unfold c in *; lra).
    destruct (Qlt_le_dec v r') as [Z|Z]; [rewrite (Qabs_neg (v - r')) in N by lra|rewrite (Qabs_pos (v - r')) in N by lra]; unfold c in *; lra.
  - intros r' D [L0 L]. setoid_replace ((r + r') / 2)%Q with ((r + r') * (1 # 2))%Q by reflexivity. set (c := ((r + r') * (1 # 2))%Q). assert (C0 : (0 < c)%Q) by (unfold c; lra).
    destruct (Qlt_le_dec q (c * c)) as [B|B]; [exfalso|exact B].
    assert (X : exists a, (0 < a)%Q /\ (a <= c)%Q /\ (a <= hi)%Q /\ (q < a * a)%Q).
    { destruct (Qlt_le_dec c hi) as [Y|Y]; [exists c|exists hi]; repeat split; try assumption; try lra. }
    destruct X as (a & A1 & A2 & A3 & A4). destruct (dense_above a q A1 Q0 A4) as (v & V0 & V1 & V2).
    assert (V3 : (lo < v)%Q) by (apply square_lt; lra). pose proof (G v ltac:(lra) r' D) as N. rewrite (Qabs_neg (v - r)) in N by (unfold c in *; lra).
    destruct (Qlt_le_dec v r') as [Z|Z]; [rewrite (Qabs_neg (v - r')) in N by lra|rewrite (Qabs_pos (v - r')) in N by lra]; unfold c in *; lra.
Qed.
Lemma exact_root : forall x g r, (0 <= g)%Q -> rounds g x -> (g < overflow_threshold)%Q -> stands_for x r -> (0 <= r)%Q -> root_rounds (g * g) x.
Proof.
  intros x g r Hg (A & _ & _) S Sx Hr. destruct A as (p & P1 & P2 & _); [rewrite Qabs_pos by lra; lra|]. pose proof (stands_unique _ _ _ P1 Sx) as E.
  exists r. split; [exact Sx|]. split; [exact Hr|]. split.
  - intros r' D L. setoid_replace ((r + r') / 2)%Q with ((r + r') * (1 # 2))%Q by reflexivity. apply square_le; [exact Hg|].
    destruct (Qlt_le_dec ((r + r') * (1 # 2)) g) as [B|B]; [exfalso|exact B]. pose proof (P2 r' D) as N. rewrite E in N. rewrite (Qabs_pos (g - r)) in N by lra.
    destruct (Qlt_le_dec g r') as [Z|Z]; [rewrite (Qabs_neg (g - r')) in N by lra|rewrite (Qabs_pos (g - r')) in N by lra]; lra.
  - intros r' D [L0 L]. setoid_replace ((r + r') / 2)%Q with ((r + r') * (1 # 2))%Q by reflexivity. apply square_le; [lra|].
    destruct (Qlt_le_dec g ((r + r') * (1 # 2))) as [B|B]; [exfalso|exact B]. pose proof (P2 r' D) as N. rewrite E in N. rewrite (Qabs_neg (g - r)) in N by lra.
    destruct (Qlt_le_dec g r') as [Z|Z]; [rewrite (Qabs_neg (g - r')) in N by lra|rewrite (Qabs_pos (g - r')) in N by lra]; lra.
Qed.
Lemma sqrt_core_between : forall m e, exists a e' l w, SFsqrt_core_binary prec emax (Zpos m) e = (a, e', l) /\ 0 < a /\ e' <= fx (Zdigits2 a + e') /\
  (dyadic (Zpos m) e == inject_Z w * (2 ^ e' * 2 ^ e'))%Q /\
  ((l = loc_Exact /\ w = a * a) \/ (l = loc_Inexact Lt /\ a * a < w /\ 4 * w < (2 * a + 1) * (2 * a + 1)) \/ (l = loc_Inexact Gt /\ (2 * a + 1) * (2 * a + 1) < 4 * w /\ w < (a + 1) * (a + 1))).
Proof.
  intros m e. unfold SFsqrt_core_binary. cbn [Zdigits2]. set (D := Z.div2 (Zpos (digits2_pos m) + e + 1)). set (e' := Z.min (fexp prec emax D) (Z.div2 e)).
  assert (L2 : 0 <= e - 2 * e'). { assert (e' <= Z.div2 e) by (unfold e'; lia). pose proof (Z.div2_odd e). destruct (Z.odd e); simpl Z.b2z in *; lia. }
  pose proof (Z.pow_pos_nonneg 2 (e - 2 * e') ltac:(lia) ltac:(lia)) as PP. set (w := Zpos m * 2 ^ (e - 2 * e')).
  assert (S : match e - 2 * e' with Zpos _ => Z.shiftl (Zpos m) (e - 2 * e') | Z0 => Zpos m | Zneg _ => 0 end = w).
  { unfold w. destruct (e - 2 * e') as [|q|q] eqn:Q; [rewrite Z.pow_0_r; lia|apply Z.shiftl_mul_pow2; lia|lia]. }
  rewrite S. assert (W0 : 0 < w) by (unfold w; nia). pose proof (Z.sqrtrem_spec w ltac:(lia)) as DE. destruct (Z.sqrtrem w) as [a r]. destruct DE as [D1 D2].
  assert (A0 : 0 < a) by nia.
  exists a, e', (if Zeq_bool r 0 then loc_Exact else loc_Inexact (if r <=? a then Lt else Gt)), w. split; [reflexivity|]. split; [exact A0|]. split; [|split].
  - destruct (Z.le_gt_cases e' (-1074)) as [E|E]; [rewrite fx_def; lia|].
    assert (FD : e' <= D - 53) by (unfold e' in *; rewrite fx_def in *; lia).
    assert (B : 2 ^ (D - 1 - e') <= a).
    { pose proof (digits_bounds m) as [M1 _]. assert (DD : 2 * D <= Zpos (digits2_pos m) + e + 1). { unfold D. pose proof (Z.div2_odd (Zpos (digits2_pos m) + e + 1)). destruct (Z.odd (Zpos (digits2_pos m) + e + 1)); simpl Z.b2z in *; lia. }
      assert (X : 2 ^ (D - 1 - e') * 2 ^ (D - 1 - e') <= w).
      { rewrite <- Z.pow_add_r by lia. apply Z.le_trans with (2 ^ (Zpos (digits2_pos m) - 1 + (e - 2 * e'))); [apply Z.pow_le_mono_r; lia|].
        rewrite Z.pow_add_r by lia. unfold w. apply Z.mul_le_mono_nonneg_r; [lia|exact M1]. }
      destruct (Z.le_gt_cases (2 ^ (D - 1 - e')) a) as [G|G]; [exact G|exfalso]. nia. }
    pose proof (digits_of a (D - 1 - e') ltac:(lia) B) as DG. rewrite fx_def. assert (e' <= fexp prec emax D) by (unfold e'; lia). rewrite fx_def in *. lia.
  - unfold w. rewrite inject_Z_mult, two_pow by lia. unfold dyadic. rewrite <- Qmult_assoc, <- !two_plus. replace (e - 2 * e' + (e' + e')) with e by lia. reflexivity.
  - assert (Hz : Zeq_bool r 0 = (r =? 0)) by (unfold Zeq_bool, Z.eqb; destruct r; reflexivity). rewrite Hz. destruct (Z.eqb_spec r 0) as [R|R]; [left; split; [reflexivity|lia]|right].
    destruct (Z.leb_spec r a) as [G|G]; [left|right]; (split; [reflexivity|nia]).
Qed.
Lemma sqrt_rounds : forall x q, stands_for x q -> (0 < q)%Q -> root_rounds q (f_sqrt x).
Proof.
  intros x q Hx Hq. unfold f_sqrt, SFsqrt. destruct x as [s|s| |s m e]; try contradiction; [simpl in Hx; lra|]. destruct s; [exfalso; destruct (negative_sign _ _ Hx) as [N _]; specialize (N Hq); discriminate|].
  destruct Hx as [Nx Hx]. destruct (sqrt_core_between m e) as (a & e' & l & w & -> & A0 & F & V & C). rewrite <- Hx in V.
  pose proof (two_pos e') as T. assert (A1 : (1 <= inject_Z a)%Q) by (change 1%Q with (inject_Z 1); rewrite <- Zle_Qle; lia).
  assert (R : forall g, between a l (g * 2 ^ (- e')) -> (0 <= g)%Q -> rounds g (binary_round_aux prec emax false a e' l) /\ negative (binary_round_aux prec emax false a e' l) = false).
  { intros g B G. split; [apply (aux_rounds false a e' l g); try assumption; lia|apply (aux_negative false a e' l g); try assumption; lia]. }
  set (z := binary_round_aux prec emax false a e' l) in *. clearbody z.
  assert (I : forall u, (u * 2 ^ e' * 2 ^ (- e') == u)%Q) by (intros u; rewrite <- Qmult_assoc, <- two_plus; replace (e' + - e') with 0 by lia; change (2 ^ 0)%Q with 1%Q; ring).
  assert (J : forall u, (u * 2 ^ (- e') * 2 ^ e' == u)%Q) by (intros u; rewrite <- Qmult_assoc, <- two_plus; replace (- e' + e') with 0 by lia; change (2 ^ 0)%Q with 1%Q; ring).
  assert (T' : (0 < 2 ^ (- e'))%Q) by apply two_pos.
  assert (Big : (inject_Z a * 2 ^ e' <= dyadic 1 512)%Q).
  { assert (Q1 : (q < dyadic 1 512 * dyadic 1 512)%Q).
    { rewrite Hx. assert (U : (dyadic (Zpos m) e < dyadic (2 ^ 53) 971)%Q). { apply Qlt_le_trans with (dyadic (2 ^ 53) e); [apply (proj2 (Qlt_alt _ _)); rewrite dy_cmp; apply Z.compare_lt_iff; apply Nx|]. unfold dyadic. setoid_rewrite Qmult_comm. apply Qmult_le_compat_r; [apply two_mono; destruct Nx; lia|discriminate]. }
      assert (K : (dyadic (2 ^ 53) 971 == dyadic 1 512 * dyadic 1 512)%Q) by reflexivity. rewrite <- K. exact U. }
    destruct (Qlt_le_dec (dyadic 1 512) (inject_Z a * 2 ^ e')) as [X|X]; [exfalso|exact X].
    assert (Y : (dyadic 1 512 * dyadic 1 512 <= inject_Z a * 2 ^ e' * (inject_Z a * 2 ^ e'))%Q) by (apply square_le; [discriminate|lra]).
    assert (Z : (inject_Z a * 2 ^ e' * (inject_Z a * 2 ^ e') <= q)%Q).
    { rewrite V. setoid_replace (inject_Z a * 2 ^ e' * (inject_Z a * 2 ^ e'))%Q with (inject_Z (a * a) * (2 ^ e' * 2 ^ e'))%Q by (rewrite inject_Z_mult; ring).
      apply Qmult_le_compat_r; [rewrite <- Zle_Qle; destruct C as [[_ C]|[[_ C]|[_ C]]]; nia|]. apply Qlt_le_weak, Qmult_lt_0_compat; exact T. }
    lra. }
  assert (Hi : ((inject_Z a + 1) * 2 ^ e' <= dyadic 1 513)%Q).
  { apply Qle_trans with (2 * inject_Z a * 2 ^ e')%Q; [apply Qmult_le_compat_r; lra|]. setoid_replace (dyadic 1 513) with (2 * dyadic 1 512)%Q by reflexivity. lra. }
  assert (SM : (dyadic 1 513 < overflow_threshold)%Q) by reflexivity.
  assert (TT : (0 < 2 ^ e' * 2 ^ e')%Q) by (apply Qmult_lt_0_compat; exact T).
  assert (VAL : forall g, rounds g z -> negative z = false -> (0 <= g < overflow_threshold)%Q -> exists r, stands_for z r /\ (0 <= r)%Q).
  { intros g Rg Ng Hg. destruct Rg as (X & _ & _). destruct X as (r & R1 & _); [rewrite Qabs_pos; lra|]. exists r. split; [exact R1|].
    destruct (Qlt_le_dec r 0) as [B|B]; [exfalso|exact B]. destruct (negative_sign _ _ R1) as [_ N]. specialize (N B). congruence. }
  assert (CL : forall lo hi, (0 <= lo)%Q -> (lo < hi)%Q -> (hi <= inject_Z a + 1)%Q -> (lo * lo < inject_Z w)%Q -> (inject_Z w < hi * hi)%Q -> (forall u, (lo < u < hi)%Q -> between a l u) -> root_rounds q z).
  { intros lo hi H0 H1 H2 H3 H4 H5.
    assert (IN : forall g, (lo * 2 ^ e' < g < hi * 2 ^ e')%Q -> between a l (g * 2 ^ (- e'))).
    { intros g [G1 G2]. apply H5. split; [apply (Qmult_lt_compat_r _ _ _ T') in G1; rewrite I in G1; exact G1|apply (Qmult_lt_compat_r _ _ _ T') in G2; rewrite I in G2; exact G2]. }
    assert (LP : (0 <= lo * 2 ^ e')%Q) by (apply Qmult_le_0_compat; lra).
    assert (HL : (lo * 2 ^ e' < hi * 2 ^ e')%Q) by (apply Qmult_lt_compat_r; assumption).
    assert (HB : (hi * 2 ^ e' <= dyadic 1 513)%Q) by (apply Qle_trans with ((inject_Z a + 1) * 2 ^ e')%Q; [apply Qmult_le_compat_r; lra|exact Hi]).
    set (mid := ((lo * 2 ^ e' + hi * 2 ^ e') * (1 # 2))%Q). destruct (R mid (IN mid ltac:(unfold mid; lra)) ltac:(unfold mid; lra)) as [R1 R2].
    destruct (VAL mid R1 R2 ltac:(unfold mid; lra)) as (r & Sr & Pr).
    apply (class_root z q (lo * 2 ^ e') (hi * 2 ^ e') r).
    - exact LP.
    - rewrite V. setoid_replace (lo * 2 ^ e' * (lo * 2 ^ e'))%Q with (lo * lo * (2 ^ e' * 2 ^ e'))%Q by ring. apply Qmult_lt_compat_r; assumption.
    - rewrite V. setoid_replace (hi * 2 ^ e' * (hi * 2 ^ e'))%Q with (hi * hi * (2 ^ e' * 2 ^ e'))%Q by ring. apply Qmult_lt_compat_r; assumption.
    - lra.
    - intros g Hg. apply (R g (IN g Hg)). lra.
    - exact Sr.
    - exact Pr. }
  assert (HALF : ((inject_Z a + (1 # 2)) * (inject_Z a + (1 # 2)) == inject_Z ((2 * a + 1) * (2 * a + 1)) * (1 # 4))%Q) by (rewrite inject_Z_mult, inject_Z_plus, inject_Z_mult; change (inject_Z 2) with 2%Q; change (inject_Z 1) with 1%Q; field).
  assert (FOUR : (inject_Z w == inject_Z (4 * w) * (1 # 4))%Q) by (rewrite inject_Z_mult; change (inject_Z 4) with 4%Q; field).
  destruct C as [[-> C]|[[-> [C1 C2]]|[-> [C1 C2]]]].
  - subst w. destruct (R (inject_Z a * 2 ^ e')%Q) as [R1 R2]; [simpl; apply I|apply Qmult_le_0_compat; lra|].
    assert (G0 : (0 <= inject_Z a * 2 ^ e' < overflow_threshold)%Q). { assert ((0 <= inject_Z a * 2 ^ e')%Q) by (apply Qmult_le_0_compat; lra). assert (dyadic 1 512 < overflow_threshold)%Q by reflexivity. lra. }
    destruct (VAL _ R1 R2 G0) as (r & Sr & Pr).
    assert (E : (q == inject_Z a * 2 ^ e' * (inject_Z a * 2 ^ e'))%Q) by (rewrite V, inject_Z_mult; ring).
    destruct (exact_root z (inject_Z a * 2 ^ e') r (proj1 G0) R1 (proj2 G0) Sr Pr) as (r0 & B1 & B2 & B3 & B4).
    exists r0. split; [exact B1|]. split; [exact B2|]. split; [intros r' D L; rewrite E; exact (B3 r' D L)|intros r' D L; rewrite E; exact (B4 r' D L)].
  - apply (CL (inject_Z a) (inject_Z a + (1 # 2))%Q); try lra.
    + rewrite <- inject_Z_mult, <- Zlt_Qlt. exact C1.
    + rewrite HALF, FOUR. apply Qmult_lt_compat_r; [reflexivity|]. rewrite <- Zlt_Qlt. exact C2.
    + intros u Hu. exact Hu.
  - apply (CL (inject_Z a + (1 # 2))%Q (inject_Z a + 1)%Q); try lra.
    + rewrite HALF, FOUR. apply Qmult_lt_compat_r; [reflexivity|]. rewrite <- Zlt_Qlt. exact C1.
    + assert (N : (inject_Z a + 1 == inject_Z (a + 1))%Q) by (rewrite inject_Z_plus; reflexivity). rewrite N, <- inject_Z_mult, <- Zlt_Qlt. exact C2.
    + intros u Hu. exact Hu.
Qed.

(** ** How far the result is from the exact value *)
Lemma binade : forall q n a, (2 ^ a <= q)%Q -> (q < 2 ^ (a + Z.of_nat n))%Q -> exists e, a <= e < a + Z.of_nat n /\ (2 ^ e <= q)%Q /\ (q < 2 ^ (e + 1))%Q.
Proof.
  intros q n. induction n as [|n IH]; intros a H1 H2; [rewrite Z.add_0_r in H2; lra|].
  destruct (Qlt_le_dec q (2 ^ (a + 1))) as [L|L]; [exists a; split; [lia|split; assumption]|].
  destruct (IH (a + 1) L) as (e & E1 & E2); [replace (a + 1 + Z.of_nat n) with (a + Z.of_nat (S n)) by lia; exact H2|]. exists e. split; [lia|exact E2].
Qed.
Lemma nearest_exists : forall v, exists k, (Qabs (v - inject_Z k) <= 1 # 2)%Q.
Proof.
  intros v. exists (Qfloor (v + (1 # 2))). pose proof (Qfloor_le (v + (1 # 2))) as A. pose proof (Qlt_floor (v + (1 # 2))) as B. rewrite inject_Z_plus in B. change (inject_Z 1) with 1%Q in B.
  apply Qabs_Qle_condition. lra.
Qed.
Lemma error_pos : forall q z p, rounds q z -> stands_for z p -> (0 <= q < overflow_threshold)%Q ->
  (Qabs (p - q) <= q * 2 ^ (-53))%Q \/ ((q < 2 ^ (-1022))%Q /\ (Qabs (p - q) <= 2 ^ (-1075))%Q).
Proof.
  intros q z p (A & _) Hz Hq. destruct A as (p0 & P1 & P2 & _); [rewrite Qabs_pos; lra|]. pose proof (stands_unique _ _ _ P1 Hz) as E.
  assert (N : forall p', a_double p' -> (Qabs (p - q) <= Qabs (q - p'))%Q) by (intros p' D; rewrite Qabs_Qminus, <- E; apply P2; exact D). clear P2.
  destruct (Qlt_le_dec q (2 ^ (-1022))) as [L|L].
  - right. split; [exact L|]. destruct (nearest_exists (q * 2 ^ 1074)) as (k & K).
    assert (V : (q * 2 ^ 1074 < inject_Z (2 ^ 52))%Q). { apply Qlt_le_trans with (2 ^ (-1022) * 2 ^ 1074)%Q; [apply Qmult_lt_compat_r; [reflexivity|exact L]|discriminate]. }
    assert (V0 : (0 <= q * 2 ^ 1074)%Q) by (apply Qmult_le_0_compat; [lra|discriminate]).
    assert (KB : Z.abs k <= 2 ^ 52).
    { pose proof K as K'. apply Qabs_Qle_condition in K'. assert (X : (inject_Z k < inject_Z (2 ^ 52 + 1))%Q). { rewrite inject_Z_plus. change (inject_Z 1) with 1%Q. lra. }
      assert (Y : (inject_Z (-1) < inject_Z k)%Q). { change (inject_Z (-1)) with (-1)%Q. lra. } rewrite <- Zlt_Qlt in X, Y. lia. }
    apply Qle_trans with (1 := N (dyadic k (-1074)) ltac:(exists k, (-1074); split; [lia|split; [lia|reflexivity]])).
    assert (S : (q == q * 2 ^ 1074 * 2 ^ (-1074))%Q) by (rewrite <- Qmult_assoc; setoid_replace (2 ^ 1074 * 2 ^ (-1074))%Q with 1%Q by reflexivity; ring).
    rewrite S. unfold dyadic. rewrite abs_scale. apply Qle_trans with ((1 # 2) * 2 ^ (-1074))%Q; [apply Qmult_le_compat_r; [exact K|discriminate]|discriminate].
  - left. destruct (binade q 2046 (-1022) L) as (e & Be & E1 & E2).
    { change (-1022 + Z.of_nat 2046) with 1024. assert (overflow_threshold < 2 ^ 1024)%Q by reflexivity. lra. }
    assert (Be' : -1022 <= e <= 1023) by lia. clear Be.
    destruct (nearest_exists (q * 2 ^ (52 - e))) as (k & K). pose proof (two_pos (52 - e)) as T.
    assert (V1 : (inject_Z (2 ^ 52) <= q * 2 ^ (52 - e))%Q).
    { apply Qle_trans with (2 ^ e * 2 ^ (52 - e))%Q; [rewrite <- two_plus; replace (e + (52 - e)) with 52 by lia; discriminate|apply Qmult_le_compat_r; [exact E1|lra]]. }
    assert (V2 : (q * 2 ^ (52 - e) < inject_Z (2 ^ 53))%Q).
    { apply Qlt_le_trans with (2 ^ (e + 1) * 2 ^ (52 - e))%Q; [apply Qmult_lt_compat_r; assumption|rewrite <- two_plus; replace (e + 1 + (52 - e)) with 53 by lia; discriminate]. }
    assert (KB : 2 ^ 52 <= k <= 2 ^ 53).
    { pose proof K as K'. apply Qabs_Qle_condition in K'. assert (X : (inject_Z k < inject_Z (2 ^ 53 + 1))%Q). { rewrite inject_Z_plus. change (inject_Z 1) with 1%Q. lra. }
      assert (Y : (inject_Z (2 ^ 52 - 1) < inject_Z k)%Q). { change (inject_Z (2 ^ 52 - 1)) with (inject_Z (2 ^ 52) - 1)%Q. lra. } rewrite <- Zlt_Qlt in X, Y. lia. }
    assert (S : (q == q * 2 ^ (52 - e) * 2 ^ (e - 52))%Q) by (rewrite <- Qmult_assoc, <- two_plus; replace (52 - e + (e - 52)) with 0 by lia; change (2 ^ 0)%Q with 1%Q; ring).
    assert (D : a_double (dyadic k (e - 52))).
    { destruct (Z.eq_dec k (2 ^ 53)) as [->|Nk]; [|exists k, (e - 52); split; [lia|split; [lia|reflexivity]]].
      exists (2 ^ 52), (e - 51). split; [lia|]. split; [|change (2 ^ 53) with (2 ^ 52 * 2 ^ 1); rewrite dy_shift by lia; replace (e - 52 + 1) with (e - 51) by lia; reflexivity].
      assert (e <> 1023); [|lia]. intros ->. apply Qabs_Qle_condition in K.
      assert (X : ((inject_Z (2 ^ 53) - (1 # 2)) * 2 ^ (1023 - 52) <= q)%Q) by (rewrite S; apply Qmult_le_compat_r; [lra|discriminate]).
      assert (Y : ((inject_Z (2 ^ 53) - (1 # 2)) * 2 ^ (1023 - 52) == overflow_threshold)%Q) by reflexivity. lra. }
    apply Qle_trans with (1 := N _ D). rewrite S at 1. unfold dyadic. rewrite abs_scale.
    apply Qle_trans with ((1 # 2) * 2 ^ (e - 52))%Q; [apply Qmult_le_compat_r; [exact K|apply Qlt_le_weak, two_pos]|].
    apply Qle_trans with (2 ^ e * 2 ^ (-53))%Q; [|apply Qmult_le_compat_r; [exact E1|discriminate]].
    setoid_replace (1 # 2)%Q with (2 ^ (-1))%Q by reflexivity. rewrite <- !two_plus. replace (-1 + (e - 52)) with (e + -53) by lia. apply Qle_refl.
Qed.
Lemma error_bound : forall q z p, rounds q z -> stands_for z p -> (Qabs q < overflow_threshold)%Q ->
  (Qabs (p - q) <= Qabs q * 2 ^ (-53))%Q \/ ((Qabs q < 2 ^ (-1022))%Q /\ (Qabs (p - q) <= 2 ^ (-1075))%Q).
Proof.
  intros q z p R Hz H. destruct (Qlt_le_dec q 0) as [S|S].
  - rewrite (Qabs_neg q) in * by lra. destruct (error_pos (- q) (f_neg z) (- p) (rounds_neg _ _ R) (neg_exact _ _ Hz)) as [X|[X Y]]; [lra|left|right].
    + rewrite (Qabs_wd (- p - - q) (- (p - q))) in X by ring. rewrite Qabs_opp in X. exact X.
    + rewrite (Qabs_wd (- p - - q) (- (p - q))) in Y by ring. rewrite Qabs_opp in Y. auto.
  - rewrite (Qabs_pos q) in * by lra. apply (error_pos q z p R Hz). lra.
Qed.
(** ** Rounding is monotonic *)
Lemma rounds_le : forall q z p d, rounds q z -> stands_for z p -> (Qabs q < overflow_threshold)%Q -> a_double d -> ((q <= d)%Q -> (p <= d)%Q) /\ ((d <= q)%Q -> (d <= p)%Q).
Proof.
  intros q z p d (A & _) Hz H D. destruct (A H) as (p0 & P1 & P2 & _). pose proof (stands_unique _ _ _ P1 Hz) as E. pose proof (P2 d D) as N. rewrite E in N. split; intros L.
  - destruct (Qlt_le_dec d p) as [B|B]; [exfalso|exact B]. rewrite (Qabs_neg (q - d)), (Qabs_neg (q - p)) in N by lra. lra.
  - destruct (Qlt_le_dec p d) as [B|B]; [exfalso|exact B]. rewrite (Qabs_pos (q - d)), (Qabs_pos (q - p)) in N by lra. lra.
Qed.
