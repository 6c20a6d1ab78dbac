(** * Reading integers *)
From Coq Require Import List NArith ZArith Bool Lia String.
From Verif Require Import ModelBase ModelText ModelNum ModelParse SpecOps SpecParse ProofOps.
Import ListNotations.
Local Open Scope Z_scope.

Lemma to_digit_spec : forall radix c x, to_digit radix c = Some x <-> 0 <= x < radix /\ Z.of_N c = 48 + x.
Proof.
  intros radix c x. unfold to_digit. split.
  - intros H. destruct ((0 <=? Z.of_N c - 48) && (Z.of_N c - 48 <? radix)) eqn:E; [|discriminate]. injection H as <-. lia.
  - intros [H1 H2]. replace (Z.of_N c - 48) with x by lia. replace ((0 <=? x) && (x <? radix)) with true by (symmetry; lia). reflexivity.
Qed.
(** Reading on from a prefix. *)
Inductive digits_from (radix : Z) : Z -> str -> Z -> Prop :=
| df_nil : forall a, digits_from radix a [] a
| df_cons : forall a s v d c, 0 <= d < radix -> Z.of_N c = 48 + d -> digits_from radix (radix * a + d) s v -> digits_from radix a (c :: s) v.
Lemma df_snoc : forall radix a s v d c, digits_from radix a s v -> 0 <= d < radix -> Z.of_N c = 48 + d -> digits_from radix a (s ++ [c]) (radix * v + d).
Proof. intros radix a s v d c H Hd Hc. induction H as [a|a s v d' c' H1 H2 H3 IH]; simpl; [apply (df_cons radix a [] _ d c Hd Hc); constructor|]. apply (df_cons radix a _ _ d' c' H1 H2). apply IH. Qed.
Lemma digits_df : forall radix s v, digits radix s v -> digits_from radix 0 s v.
Proof. intros radix s v H. induction H; [constructor|]. apply df_snoc; assumption. Qed.
Lemma df_digits : forall radix a s v p, digits radix p a -> digits_from radix a s v -> digits radix (p ++ s) v.
Proof.
  intros radix a s v p Hp H. revert p Hp. induction H; intros p Hp; [rewrite app_nil_r; exact Hp|].
  change (c :: s) with ([c] ++ s). rewrite app_assoc. apply IHdigits_from. apply digits_more; assumption.
Qed.
Lemma digits_iff : forall radix s v, digits radix s v <-> digits_from radix 0 s v.
Proof. intros. split; [apply digits_df|]. intros H. apply (df_digits radix 0 s v []); [constructor|exact H]. Qed.
Lemma df_mono : forall radix a s v, 1 <= radix -> 0 <= a -> digits_from radix a s v -> a <= v.
Proof. intros radix a s v Hr Ha H. induction H; [lia|]. specialize (IHdigits_from ltac:(nia)). nia. Qed.

Lemma fits_between : forall t a b c, fits t a -> fits t c -> a <= b <= c \/ c <= b <= a -> fits t b.
Proof. intros t a b c. unfold fits. destruct (signed t); lia. Qed.
Lemma fits_zero : forall t, 0 < bits t -> fits t 0.
Proof.
  intros t H. unfold fits. destruct (signed t).
  - assert (0 < 2 ^ (bits t - 1)) by (apply Z.pow_pos_nonneg; lia). lia.
  - assert (0 < 2 ^ bits t) by (apply Z.pow_pos_nonneg; lia). lia.
Qed.
Lemma checked_some : forall t z v, checked t z = Some v <-> z = v /\ fits t v.
Proof. intros t z v. unfold checked. destruct (in_range t z) eqn:E.
  - apply fits_range in E. split; [intros X; injection X as <-; auto|intros [-> _]; reflexivity].
  - apply not_fits_range in E. split; [discriminate|]. intros [-> X]. contradiction.
Qed.

(** [sg] is the sign of what is being read. *)
Lemma loop_spec : forall t radix (neg : bool) s a v, 0 < bits t -> 1 <= radix -> 0 <= a -> fits t (if neg then - a else a) ->
  (parse_loop t radix neg (if neg then - a else a) s = Some (if neg then - v else v) <-> digits_from radix a s v /\ fits t (if neg then - v else v)).
Proof.
  intros t radix neg. induction s as [|c s IH]; intros a v Hb Hr Ha Hf; cbn [parse_loop].
  - split.
    + intros X. assert (a = v) by (destruct neg; injection X; lia). subst v. split; [constructor|exact Hf].
    + intros [X _]. inversion X; subst. reflexivity.
  - split.
    + intros H. destruct (checked t ((if neg then - a else a) * radix)) as [m|] eqn:Em; [|discriminate]. apply checked_some in Em. destruct Em as [<- Fm].
      destruct (to_digit radix c) as [x|] eqn:Ex; [|discriminate]. apply to_digit_spec in Ex. destruct Ex as [Hx Hc].
      match type of H with context [checked t ?y] => destruct (checked t y) as [r|] eqn:Er end; [|discriminate]. apply checked_some in Er. destruct Er as [Er Fr].
      assert (r = if neg then - (radix * a + x) else radix * a + x) by (destruct neg; lia). subst r. rewrite H0 in H, Fr. apply IH in H; [|assumption|assumption|nia|exact Fr].
      destruct H as [H F]. split; [econstructor; eassumption|exact F].
    + intros [H F]. inversion H as [|? ? ? d ? H2 H4 H6]; subst. assert (Hm0 : 0 <= radix * a + d) by nia. pose proof (df_mono _ _ _ _ Hr Hm0 H6) as Hm. pose proof (fits_zero t Hb) as F0.
      assert (F1 : fits t ((if neg then - a else a) * radix)) by (apply (fits_between t 0 _ (if neg then - v else v)); [exact F0|exact F|destruct neg; nia]).
      assert (F2 : fits t (if neg then - (radix * a + d) else radix * a + d)) by (apply (fits_between t 0 _ (if neg then - v else v)); [exact F0|exact F|destruct neg; nia]).
      rewrite (proj2 (checked_some t ((if neg then - a else a) * radix) _) (conj eq_refl F1)). rewrite (proj2 (to_digit_spec radix c d) (conj H2 H4)).
      replace (if neg then (if neg then - a else a) * radix - d else (if neg then - a else a) * radix + d) with (if neg then - (radix * a + d) else radix * a + d) by (destruct neg; lia).
      rewrite (proj2 (checked_some t _ _) (conj eq_refl F2)). apply IH; [assumption|assumption|nia|exact F2|]. auto.
Qed.
Lemma loop_pos : forall t radix s v, 0 < bits t -> 1 <= radix -> (parse_loop t radix false 0 s = Some v <-> digits radix s v /\ fits t v).
Proof. intros t radix s v Hb Hr. rewrite digits_iff. exact (loop_spec t radix false s 0 v Hb Hr (Z.le_refl 0) (fits_zero t Hb)). Qed.
Lemma loop_neg : forall t radix s v, 0 < bits t -> 1 <= radix -> (parse_loop t radix true 0 s = Some (- v) <-> digits radix s v /\ fits t (- v)).
Proof. intros t radix s v Hb Hr. rewrite digits_iff. exact (loop_spec t radix true s 0 v Hb Hr (Z.le_refl 0) (fits_zero t Hb)). Qed.
Lemma digits_char : forall radix s v c, radix <= 10 -> digits radix s v -> In c s -> (48 <= c <= 57)%N.
Proof. intros radix s v c Hr H. induction H; intros Hc; [destruct Hc|]. apply in_app_or in Hc. destruct Hc as [Hc|[<-|[]]]; [auto|lia]. Qed.

Lemma radix_spec : forall t radix s v, 0 < bits t -> 1 <= radix <= 10 -> (from_str_radix t radix s = Some v <-> numeral radix (signed t) s v /\ fits t v).
Proof.
  intros t radix s v Hb Hr.
  assert (NP : forall c s', digits radix (c :: s') v -> c <> 43%N /\ c <> 45%N).
  { intros c s' H. pose proof (digits_char radix _ _ c ltac:(lia) H ltac:(left; reflexivity)). lia. }
  assert (NQ : forall c s' v', digits radix (c :: s') v' -> c <> 43%N /\ c <> 45%N).
  { intros c s' v' H. pose proof (digits_char radix _ _ c ltac:(lia) H ltac:(left; reflexivity)). lia. }
  unfold from_str_radix. destruct s as [|c s].
  { split; [discriminate|]. intros [H _]. inversion H; congruence. }
  destruct s as [|c2 s].
  - destruct ((c =? 43)%N || (c =? 45)%N) eqn:E.
    + split; [discriminate|]. intros [H _]. inversion H; subst; try congruence. destruct (NP _ _ H0). apply orb_true_iff in E. rewrite !N.eqb_eq in E. tauto.
    + rewrite loop_pos by lia. split; intros [H F]; (split; [|exact F]).
      * apply numeral_plain; [exact H|discriminate].
      * inversion H; subst; try congruence.
  - destruct (c =? 43)%N eqn:E1; [apply N.eqb_eq in E1; subst c|].
    { rewrite loop_pos by lia. split; intros [H F]; (split; [|exact F]).
      - apply numeral_plus; [exact H|discriminate].
      - inversion H; subst; [destruct (NP _ _ H0); congruence|exact H1]. }
    destruct ((c =? 45)%N && signed t) eqn:E2.
    { apply andb_true_iff in E2. destruct E2 as [E2 Es]. apply N.eqb_eq in E2. subst c. rewrite <- (Z.opp_involutive v). rewrite loop_neg by lia. split; intros [H F]; (split; [|exact F]).
      - apply numeral_minus; [exact H|discriminate|exact Es].
      - inversion H; subst; [destruct (NQ _ _ _ H0); congruence|]. replace (- v) with v0 by lia. exact H2. }
    rewrite loop_pos by lia. split; intros [H F]; (split; [|exact F]).
    + apply numeral_plain; [exact H|discriminate].
    + inversion H; subst; [assumption|discriminate|]. match goal with X : signed t = true |- _ => rewrite N.eqb_refl, X in E2 end. discriminate.
Qed.
Lemma parse_int_spec : forall t s v, 0 < bits t -> (parse_int t s = Some v <-> numeral 10 (signed t) s v /\ fits t v).
Proof. intros t s v Hb. apply radix_spec; lia. Qed.
