(** * The description of SpecDoubleCalc determines the result *)
From Coq Require Import List NArith ZArith QArith Qabs Bool Arith Lia Lqa String.
From Coq Require Import Floats.SpecFloat.
From Verif Require Import ModelBase ModelContext ModelEvaluator ModelFloat ModelGamma ModelNum
  SpecExpr SpecText SpecOps SpecDecimal SpecDouble SpecFunctions SpecRound SpecCalculator SpecDoubleCalc
  ProofText ProofFloat ProofDouble ProofDouble2 ProofSnap ProofRound ProofRound2 ProofRound3 ProofCalculator PropFunctions PropRound.
Import ListNotations.
Local Open Scope Z_scope.

(** At most one result, and if it is a value then a good one. *)
Definition decided {A} (N : A -> Prop) (P : res A -> Prop) : Prop := (forall r1 r2, P r1 -> P r2 -> r1 = r2) /\ forall z, P (Ok z) -> N z.
Lemma decided_is : forall A (N : A -> Prop) r0, (forall z, r0 = Ok z -> N z) -> decided N (fun r => r = r0).
Proof. intros A N r0 H. split; [congruence|]. intros z E. apply H. congruence. Qed.
Lemma decided_followed : forall A B (N : A -> Prop) (N' : B -> Prop) P Q, decided N P -> (forall x, N x -> decided N' (Q x)) -> decided N' (followed P Q).
Proof.
  intros A B N N' P Q [P1 P2] HQ. split.
  - intros r1 r2 (a & A1 & A2) (b & B1 & B2). pose proof (P1 a b A1 B1). subst b. destruct a as [x|k|]; [|congruence..]. destruct (HQ x (P2 x A1)) as [Q1 _]. exact (Q1 _ _ A2 B2).
  - intros z (a & A1 & A2). destruct a as [x|k|]; [|discriminate..]. exact (proj2 (HQ x (P2 x A1)) z A2).
Qed.
Lemma decided_number : forall P : f64 -> Prop, (forall x y, P x -> P y -> x = y) -> (forall x, P x -> a_number x) -> decided a_number (number_with P).
Proof. intros P U N. split; [intros r1 r2 (x & -> & X) (y & -> & Y); f_equal; auto|]. intros z (x & E & X). injection E as ->. auto. Qed.

Lemma sum_decided : forall x y, a_number x -> a_number y -> (forall z z', ieee_sum x y z -> ieee_sum x y z' -> z = z') /\ forall z, ieee_sum x y z -> a_number z.
Proof. intros x y X Y. split; [intros z z'; apply (sum_unique x y z z' X Y)|intros z Z; apply (op_number x y z X Y); auto]. Qed.
Lemma product_decided : forall x y, a_number x -> a_number y -> (forall z z', ieee_product x y z -> ieee_product x y z' -> z = z') /\ forall z, ieee_product x y z -> a_number z.
Proof. intros x y X Y. split; [intros z z'; apply (product_unique x y z z' X Y)|intros z Z; apply (op_number x y z X Y); auto]. Qed.
Lemma quotient_decided : forall x y, a_number x -> a_number y -> (forall z z', ieee_quotient x y z -> ieee_quotient x y z' -> z = z') /\ forall z, ieee_quotient x y z -> a_number z.
Proof. intros x y X Y. split; [intros z z'; apply (quotient_unique x y z z' X Y)|intros z Z; apply (op_number x y z X Y); auto]. Qed.
Lemma remainder_decided : forall x y, a_number x -> a_number y -> (forall z z', ieee_remainder x y z -> ieee_remainder x y z' -> z = z') /\ forall z, ieee_remainder x y z -> a_number z.
Proof. intros x y X Y. split; [intros z z'; apply (remainder_unique x y z z' X Y)|intros z Z; apply (op_number x y z X Y); intuition]. Qed.
Lemma steps_decided : forall op : f64 -> f64 -> f64 -> Prop, (forall x y, a_number x -> a_number y -> (forall z z', op x y z -> op x y z' -> z = z') /\ forall z, op x y z -> a_number z) ->
  forall xs, Forall a_number xs -> forall a, a_number a -> (forall z z', stepwise op a xs z -> stepwise op a xs z' -> z = z') /\ forall z, stepwise op a xs z -> a_number z.
Proof.
  intros op Hop xs Hx. induction Hx as [|x xs X _ IH]; intros a A; cbn [stepwise]; [split; [congruence|intros z ->; exact A]|]. destruct (Hop a x A X) as [U N]. split.
  - intros z z' (b & B1 & B2) (b' & B1' & B2'). pose proof (U _ _ B1 B1'). subst b'. exact (proj1 (IH b (N b B1)) z z' B2 B2').
  - intros z (b & B1 & B2). exact (proj2 (IH b (N b B1)) z B2).
Qed.

Lemma rounds_positive : forall q z, rounds q z -> (1 <= q)%Q -> negative z = false.
Proof.
  intros q z R Q1. destruct (threshold_cases q) as [H|[H|H]].
  - destruct R as (R & _). destruct (R H) as (p & P & R'). assert (R0 : rounds q z). { split; [intros _; exists p; auto|]. pose proof threshold_pos. split; intros K; exfalso; [|lra]. assert (Qabs q == q)%Q by (apply Qabs_pos; lra). lra. }
    destruct (rounds_le _ _ p 1%Q R0 P H) as [_ B]; [exists 1, 0; split; [lia|split; [lia|reflexivity]]|]. apply (positive_of z p P). specialize (B Q1). lra.
  - rewrite (proj1 (proj2 R) H). reflexivity.
  - pose proof threshold_pos. lra.
Qed.
Lemma literal_decided : forall q, (1 <= q)%Q -> decided a_number (number_with (rounds q)).
Proof. intros q Q. apply decided_number; [intros x y X Y; apply (rounds_unique q x y X Y); rewrite (rounds_positive q x X Q), (rounds_positive q y Y Q); reflexivity|intros x X; apply (rounds_number q x X)]. Qed.

Lemma snapped_decided : forall x, a_number x -> (forall s s', snapped x s -> snapped x s' -> s = s') /\ forall s, snapped x s -> a_number s /\ (finite x = true -> finite s = true).
Proof.
  intros x X. destruct (finite x) eqn:F.
  - destruct (X F) as (q & Q). split; [intros s s' A B; exact (snapped_unique x s s' q Q A B)|]. intros s [_ S]. destruct (S q Q) as [S1 S2]. destruct (near_or_far x q Q) as [[k K]|K].
    + destruct (S1 k K) as [A _]. split; [intros _; eauto|]. intros _. destruct s; try contradiction; reflexivity.
    + rewrite (S2 K). auto.
  - split; [intros s s' [A _] [B _]; rewrite (A F), (B F); reflexivity|]. intros s [A _]. rewrite (A F). split; [exact X|congruence].
Qed.
Lemma one_number : a_number f_one. Proof. intros _. exists 1%Q. exact one_stands. Qed.
Lemma reciprocal_number : forall x, a_number x -> a_number (reciprocal x).
Proof.
  intros x X. destruct (zero_double x) eqn:Z; [destruct x; try discriminate Z; intros F; discriminate F|]. apply (op_number f_one x (reciprocal x) one_number X). right. right. right. left. apply quotient_ieee. exact Z.
Qed.
Lemma sqrt_number : forall x, a_number x -> a_number (f_sqrt x).
Proof.
  intros x X F. destruct x as [s|s| |s m e]; try (destruct s); try discriminate F; try (exists 0%Q; reflexivity).
  destruct (X eq_refl) as (q & Q). assert (0 < q)%Q. { destruct Q as [_ Q]. rewrite Q. apply dy_pos. lia. } destruct (sqrt_rounds _ q Q H) as (r & R & _). eauto.
Qed.
Lemma finite_number : forall x, a_number x -> decided a_number (fun r => r = finite_or_nan x).
Proof. intros x X. apply decided_is. intros z Z. unfold finite_or_nan in Z. destruct (finite x); [injection Z as <-; exact X|discriminate Z]. Qed.

Section Platform.
Variable L : libm.
Hypothesis HL : proper_platform L.
Lemma platform_number : forall m x, a_number (platform m L x). Proof using HL. intros m x. apply HL. Qed.
Lemma computes_decided : forall name fm x, In (name, fm) function_table -> a_number x -> decided a_number (computes L fm x).
Proof using HL.
  intros name fm x HIn X. split; [intros r1 r2; apply (C65_determined L fm x r1 r2); [exact platform_number|exact X]|].
  assert (Hf : match fm with Of_snapped f => forall s, a_number s -> a_number (f L s) | _ => True end).
  { unfold function_table in HIn. repeat (destruct HIn as [HIn|HIn]; [injection HIn as _ <-; first [exact I|intros s _; apply platform_number|intros s; apply sqrt_number]|]). destruct HIn. }
  intros z C. destruct fm as [m|m|m|m|f|m]; cbn [computes] in C.
  1-4: destruct C as (s & S & C); pose proof (proj1 (proj2 (snapped_decided _ (platform_number _ _)) s S)) as N; unfold finite_or_nan in C; match type of C with Ok _ = if ?b then _ else _ => destruct b; [injection C as ->|discriminate C] end; try exact N; apply reciprocal_number; exact N.
  - destruct (finite x); [|discriminate C]. destruct C as (s & S & C). injection C as ->. apply Hf. apply (proj2 (snapped_decided x X) s S).
  - destruct (finite x); [|discriminate C]. destruct C as (s & S & C). injection C as ->. apply reciprocal_number, platform_number.
Qed.
Lemma integer_decided : forall (which : Q -> Z -> Prop) x, (forall q k k', which q k -> which q k' -> k = k') -> a_number x -> decided a_number (integer_worth which x).
Proof using.
  clear. intros which x Hw X. unfold integer_worth. destruct (finite x) eqn:F; [|apply decided_is; discriminate]. destruct (snapped_decided x X) as [U N]. split.
  - intros r1 r2 (s & S1 & S2) (s' & T1 & T2). pose proof (U _ _ S1 T1). subst s'. destruct (N s S1) as [Ns Fs]. destruct (Ns (Fs F)) as (q & Q).
    destruct (S2 q Q) as (z & -> & k & K1 & K2 & K3). destruct (T2 q Q) as (z' & -> & k' & K1' & K2' & K3'). f_equal. pose proof (Hw q k k' K1 K1'). subst k'. apply (same_double z z' _ K2 K2'). congruence.
  - intros z (s & S1 & S2). destruct (N s S1) as [Ns Fs]. destruct (Ns (Fs F)) as (q & Q). destruct (S2 q Q) as (z' & Z & k & K1 & K2 & K3). injection Z as ->. intros _. eauto.
Qed.
Lemma floor_one : forall q k k', is_floor q k -> is_floor q k' -> k = k'.
Proof using. clear. intros q k k' [A B] [C D]. assert (k < k' + 1) by (rewrite Zlt_Qlt; lra). assert (k' < k + 1) by (rewrite Zlt_Qlt; lra). lia. Qed.
Lemma ceil_one : forall q k k', is_ceiling q k -> is_ceiling q k' -> k = k'.
Proof using. clear. intros q k k' [A B] [C D]. assert (k - 1 < k') by (rewrite Zlt_Qlt; lra). assert (k' - 1 < k) by (rewrite Zlt_Qlt; lra). lia. Qed.
Lemma round_one : forall q k k', is_rounded q k -> is_rounded q k' -> k = k'.
Proof using.
  clear. intros q k k' [A B] [C D]. apply Qabs_Qle_condition in A. apply Qabs_Qle_condition in C. destruct A as [A1 A2], C as [C1 C2].
  assert (k <= k' + 1) by (rewrite Zle_Qle, inject_Z_plus; change (inject_Z 1) with 1%Q; lra). assert (k' <= k + 1) by (rewrite Zle_Qle, inject_Z_plus; change (inject_Z 1) with 1%Q; lra).
  assert (T : k = k' \/ k = k' + 1 \/ k' = k + 1) by lia. destruct T as [T|T]; [exact T|exfalso].
  assert (G : forall a b, b = a + 1 -> (q - inject_Z a <= 1 # 2)%Q -> (- (1 # 2) <= q - inject_Z b)%Q -> ((Qabs (q - inject_Z a) == 1 # 2)%Q -> (Qabs q < Qabs (inject_Z a))%Q) -> ((Qabs (q - inject_Z b) == 1 # 2)%Q -> (Qabs q < Qabs (inject_Z b))%Q) -> False).
  { intros a b -> I1 I2 B1 B2. rewrite inject_Z_plus in *. change (inject_Z 1) with 1%Q in *. assert (Q0 : (q == inject_Z a + (1 # 2))%Q) by lra.
    assert (X1 : (Qabs (q - inject_Z a) == 1 # 2)%Q). { setoid_replace (q - inject_Z a)%Q with (1 # 2)%Q by lra. reflexivity. }
    assert (X2 : (Qabs (q - (inject_Z a + 1)) == 1 # 2)%Q). { setoid_replace (q - (inject_Z a + 1))%Q with (- (1 # 2))%Q by lra. reflexivity. }
    specialize (B1 X1). specialize (B2 X2). rewrite Q0 in B1, B2. destruct (Z_lt_le_dec a 0) as [N|N].
    - assert (a + 1 <= 0) as N' by lia. rewrite Zle_Qle, inject_Z_plus in N'. change (inject_Z 1) with 1%Q in N'. change (inject_Z 0) with 0%Q in N'. rewrite !Qabs_neg in B2 by lra. lra.
    - rewrite Zle_Qle in N. change (inject_Z 0) with 0%Q in N. rewrite !Qabs_pos in B1 by lra. lra. }
  destruct T as [T|T]; [apply (G k' k T); auto|apply (G k k' T); auto].
Qed.
Lemma one_decided : forall f xs, (forall x, In x xs -> decided a_number (f x)) -> decided a_number (of_one f xs).
Proof using. clear. intros f xs H. unfold of_one. destruct xs as [|x [|y xs]]; [apply decided_is; discriminate| |apply decided_is; discriminate]. apply H. left. reflexivity. Qed.
Lemma pick_decided : forall better xs, Forall a_number xs -> decided a_number (pick better xs).
Proof using.
  clear. intros better xs H. unfold pick. destruct xs as [|x [|y xs]]; try (apply decided_is; discriminate). apply decided_is. intros z Z. injection Z as <-. inversion H as [|? ? A B]; subst. change (a_number (fold_left (fun a v => if better v a then v else a) (y :: xs) x)). revert A B. generalize (y :: xs) as l. clear. intros l. revert x.
  induction l as [|v l IH]; intros a A B; [exact A|]. cbn [fold_left]. inversion B; subst. apply IH; [destruct (better v a); assumption|assumption].
Qed.
Lemma table_one : forall (l : list (string * form)) m fm m' fm', NoDup (map (fun p => lit (fst p)) l) -> In (m, fm) l -> In (m', fm') l -> lit m = lit m' -> fm = fm'.
Proof using.
  clear. intros l m fm m' fm' Nd. induction l as [|[a b] l IH]; intros A B E; [destruct A|]. inversion Nd as [|x xs N1 N2]; subst. cbn [fst] in N1.
  destruct A as [A|A], B as [B|B].
  - congruence.
  - exfalso. injection A as -> ->. apply N1. rewrite E. apply in_map_iff. exists (m', fm'). auto.
  - exfalso. injection B as -> ->. apply N1. rewrite <- E. apply in_map_iff. exists (m, fm). auto.
  - exact (IH N2 A B E).
Qed.
Lemma table_nodup : NoDup (map (fun p => lit (fst p)) function_table).
Proof using.
  clear. assert (G : forall l : list str, (fix nd l := match l with [] => true | x :: l' => negb (existsb (str_eqb x) l') && nd l' end) l = true -> NoDup l).
  { induction l as [|x l IH]; intros H; [constructor|]. apply andb_true_iff in H. destruct H as [H1 H2]. constructor; [|apply IH; exact H2]. intros X. apply negb_true_iff in H1. assert (Y : existsb (str_eqb x) l = true) by (apply existsb_exists; exists x; split; [exact X|apply str_eqb_refl]). congruence. }
  apply G. vm_compute. reflexivity.
Qed.

Variables checked docs : bool.
Lemma call_decided : forall f xs, Forall a_number xs -> decided a_number (call_worth L checked docs f xs).
Proof using HL.
  intros f xs Hx. assert (Hx' : forall x, In x xs -> a_number x) by (apply Forall_forall; exact Hx). unfold call_worth. destruct HL as (H1 & H2 & H3 & H4).
  destruct (named f "sum").
  { destruct xs as [|x xs]; [apply decided_is; discriminate|]. inversion Hx; subst. destruct (steps_decided _ sum_decided xs ltac:(assumption) x ltac:(assumption)). apply decided_number; assumption. }
  destruct (named f "product").
  { destruct xs as [|x xs]; [apply decided_is; discriminate|]. inversion Hx; subst. destruct (steps_decided _ product_decided xs ltac:(assumption) x ltac:(assumption)). apply decided_number; assumption. }
  destruct (named f "avg").
  { destruct xs as [|x xs]; [apply decided_is; discriminate|]. inversion Hx; subst. destruct (steps_decided _ sum_decided xs ltac:(assumption) x ltac:(assumption)) as [U N].
    assert (G : (1 <= inject_Z (Z.of_nat (List.length (x :: xs))))%Q) by (change 1%Q with (inject_Z 1); rewrite <- Zle_Qle; cbn [List.length]; lia). split.
    - intros r1 r2 (s & k & S & K & Z) (s' & k' & S' & K' & Z'). pose proof (U _ _ S S'). subst s'. assert (k = k') by (apply (rounds_unique _ k k' K K'); rewrite (rounds_positive _ _ K G), (rounds_positive _ _ K' G); reflexivity). subst k'.
      destruct (quotient_decided s k (N s S) (proj1 (rounds_number _ _ K))) as [A B]. exact (proj1 (decided_number _ A B) _ _ Z Z').
    - intros z (s & k & S & K & Z). destruct (quotient_decided s k (N s S) (proj1 (rounds_number _ _ K))) as [A B]. exact (proj2 (decided_number _ A B) _ Z). }
  destruct (named f "max"); [apply pick_decided; exact Hx|]. destruct (named f "min"); [apply pick_decided; exact Hx|].
  destruct (named f "log"). { destruct xs as [|x [|y [|z xs]]]; try (apply decided_is; discriminate); apply finite_number; [apply platform_number|apply H3]. }
  destruct (named f "atan"). { destruct xs as [|x [|y [|z xs]]]; try (apply decided_is; discriminate); [apply finite_number, platform_number|]. destruct (zero_double x && zero_double y); [apply decided_is; discriminate|apply finite_number, platform_number]. }
  destruct (checked && named f "abs"). { apply one_decided. intros x I. apply decided_is. intros z Z. injection Z as <-. specialize (Hx' x I). destruct (SFltb _ _); [apply opposite_number; exact Hx'|exact Hx']. }
  destruct (checked && named f "floor"). { apply one_decided. intros x I. apply integer_decided; [exact floor_one|exact (Hx' x I)]. }
  destruct (checked && named f "ceil"). { apply one_decided. intros x I. apply integer_decided; [exact ceil_one|exact (Hx' x I)]. }
  destruct (checked && named f "round"). { apply one_decided. intros x I. apply integer_decided; [exact round_one|exact (Hx' x I)]. }
  destruct (checked && named f (if docs then "trunc" else "truncate")). { apply one_decided. intros x I. apply integer_decided; [congruence|exact (Hx' x I)]. }
  destruct (checked && named f (if docs then "signum" else "sign")).
  { apply one_decided. intros x I. destruct (finite x); [|apply decided_is; discriminate]. apply decided_number.
    - intros y z Y Z. apply (double_unique y z _ Y Z). destruct (negative x); discriminate.
    - intros y Y _. eauto. }
  split.
  - intros r1 r2 (m & fm & A & B & C) (m' & fm' & A' & B' & C').
    assert (fm = fm'). { apply (table_one function_table m fm m' fm' table_nodup A A'). unfold named in B, B'. apply str_eqb_eq in B. apply str_eqb_eq in B'. congruence. } subst fm'.
    revert C C'. apply (one_decided (computes L fm) xs). intros x I. apply (computes_decided m fm x A). exact (Hx' x I).
  - intros z (m & fm & A & B & C). revert C. apply (one_decided (computes L fm) xs). intros x I. apply (computes_decided m fm x A). exact (Hx' x I).
Qed.

Variable vars : str -> option f64.
Hypothesis HV : forall x v, vars x = Some v -> a_number v.
Variable turns : nat.
Lemma operation_decided : forall o x y, a_number x -> a_number y -> decided a_number (operation_worth L o x y).
Proof using HL.
  intros o x y X Y. unfold operation_worth.
  destruct (named o "+"); [destruct (sum_decided x y X Y); apply decided_number; assumption|].
  destruct (named o "-"); [destruct (sum_decided x (opposite y) X (opposite_number y Y)); apply decided_number; assumption|].
  destruct (named o "*"); [destruct (product_decided x y X Y); apply decided_number; assumption|].
  destruct (named o "/"); [destruct (zero_double y); [apply decided_is; discriminate|destruct (quotient_decided x y X Y); apply decided_number; assumption]|].
  destruct (named o "mod"); [destruct (zero_double y); [apply decided_is; discriminate|destruct (remainder_decided x y X Y); apply decided_number; assumption]|].
  destruct (named o "^"); [apply decided_is; intros z Z; injection Z as <-; apply HL|]. split; intros; contradiction.
Qed.
Lemma worth_decided : forall e, plain e -> decided a_number (worth L vars turns checked docs e).
Proof using HL HV.
  refine (expr_ind' _ (fun e => plain e -> decided a_number (worth L vars turns checked docs e)) _ _ _ _ _ _ _ _ _); cbn [plain worth].
  - intros v N. apply decided_is. intros z Z. injection Z as <-. exact N.
  - intros x _. apply decided_is. intros z Z. destruct (vars x) as [v|] eqn:V; [injection Z as <-; exact (HV x v V)|discriminate].
  - intros x _. destruct (named x "pi"); [apply literal_decided; discriminate|]. destruct (named x "e"); [apply literal_decided; discriminate|]. split; intros; contradiction.
  - intros g e IH. exact IH.
  - intros f g args IH P. apply (decided_followed _ _ (Forall a_number)); [|intros xs X; exact (call_decided f xs X)].
    revert P. induction IH as [|e es A _ IHes]; cbn [map all_worth]; [intros _; apply decided_is; intros z Z; injection Z as <-; constructor|].
    intros [P Ps]. apply (decided_followed _ _ a_number); [exact (A P)|]. intros x X. apply (decided_followed _ _ (Forall a_number)); [exact (IHes Ps)|]. intros xs Xs. apply decided_is. intros z Z. injection Z as <-. constructor; assumption.
  - intros u e IH P. apply (decided_followed _ _ a_number); [exact (IH P)|]. intros x X. apply decided_is. intros z Z. injection Z as <-. destruct (named u "-"); [apply opposite_number; exact X|exact X].
  - intros e u IH [].
  - intros o l r IHl IHr [Pl Pr]. apply (decided_followed _ _ a_number); [exact (IHl Pl)|]. intros x X. apply (decided_followed _ _ a_number); [exact (IHr Pr)|]. intros y Y. exact (operation_decided o x y X Y).
  - intros l r IHl IHr [Pl Pr]. apply (decided_followed _ _ a_number); [exact (IHl Pl)|]. intros x X. apply (decided_followed _ _ a_number); [exact (IHr Pr)|]. intros y Y. destruct (product_decided x y X Y). apply decided_number; assumption.
Qed.
End Platform.
