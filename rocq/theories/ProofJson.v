(** * Reading JSON: the reader is sound and complete for RFC 8259 *)
From Coq Require Import List NArith Bool Arith Lia String.
From Verif Require Import ModelBase ModelText ModelSplit.
From Verif Require Import ModelServer.
From Verif Require Import ModelJson SpecLex SpecJson ProofSplit.
Import ListNotations.
Local Open Scope N_scope.

(** ** Hexadecimal digits *)
Lemma hex_spec : forall c n, hex_value c = Some n <-> hex c n.
Proof.
  intros c n. unfold hex_value, is_digit. split.
  - destruct (between 48 57 c) eqn:A; [apply between_spec in A; intros H; injection H as <-; replace c with (48 + (c - 48)) at 1 by lia; constructor; lia|].
    destruct (between 97 102 c) eqn:B; [apply between_spec in B; intros H; injection H as <-; replace c with (87 + (c - 87)) at 1 by lia; apply hex_lower; lia|].
    destruct (between 65 70 c) eqn:C; [apply between_spec in C; intros H; injection H as <-; replace c with (55 + (c - 55)) at 1 by lia; apply hex_upper; lia|]. discriminate.
  - assert (F : forall a b x, ~ (a <= x <= b) -> between a b x = false) by (intros a b x H; destruct (between a b x) eqn:K; [apply between_spec in K; contradiction|reflexivity]).
    assert (T : forall a b x, (a <= x <= b) -> between a b x = true) by (intros a b x H; apply between_spec; exact H).
    intros H. destruct H as [n H|n H|n H].
    + rewrite T by lia. f_equal. lia.
    + rewrite F, T by lia. f_equal. lia.
    + rewrite (F 48 57), (F 97 102), T by lia. f_equal. lia.
Qed.
Lemma hex_small : forall c n, hex c n -> n < 16. Proof. destruct 1; lia. Qed.
Lemma hex4_spec : forall a b c d u, hex4 a b c d = Some u <-> four_hex [a; b; c; d] u.
Proof.
  intros a b c d u. unfold hex4. split.
  - destruct (hex_value a) eqn:A; [|discriminate]. destruct (hex_value b) eqn:B; [|discriminate]. destruct (hex_value c) eqn:C; [|discriminate]. destruct (hex_value d) eqn:D; [|discriminate].
    intros H. injection H as <-. constructor; apply hex_spec; assumption.
  - intros H. inversion H as [a' b' c' d' w x y z A B C D]. apply hex_spec in A, B, C, D. rewrite A, B, C, D. reflexivity.
Qed.
Lemma four_inv : forall h u, four_hex h u -> exists a b c d, h = [a; b; c; d] /\ hex4 a b c d = Some u.
Proof. intros h u H. assert (K := H). destruct H as [a b c d w x y z]. exists a, b, c, d. split; [reflexivity|]. apply hex4_spec. exact K. Qed.
Lemma between_t : forall a b x, a <= x <= b -> between a b x = true. Proof. intros. apply between_spec. assumption. Qed.
Lemma between_f : forall a b x, ~ (a <= x <= b) -> between a b x = false. Proof. intros a b x H; destruct (between a b x) eqn:K; [apply between_spec in K; contradiction|reflexivity]. Qed.

(** ** Strings *)
Lemma short_spec : forall e c, short_escape e = Some c <-> In (e, c) escapes.
Proof.
  intros e c. split.
  - unfold short_escape. intros H.
    assert (G : forall x y, e = x -> c = y -> In (x, y) escapes -> In (e, c) escapes) by (intros; subst; assumption).
    destruct (e =? 34) eqn:E1; [apply N.eqb_eq in E1; injection H as <-; eapply G; [exact E1|exact E1|]; cbn; auto|].
    destruct (e =? 92) eqn:E2; [apply N.eqb_eq in E2; injection H as <-; eapply G; [exact E2|exact E2|]; cbn; auto|].
    destruct (e =? 47) eqn:E3; [apply N.eqb_eq in E3; injection H as <-; eapply G; [exact E3|exact E3|]; cbn; auto|]. cbn [orb] in H.
    destruct (e =? 98) eqn:E4; [apply N.eqb_eq in E4; injection H as <-; eapply G; [exact E4|reflexivity|]; cbn; auto|].
    destruct (e =? 102) eqn:E5; [apply N.eqb_eq in E5; injection H as <-; eapply G; [exact E5|reflexivity|]; cbn; tauto|].
    destruct (e =? 110) eqn:E6; [apply N.eqb_eq in E6; injection H as <-; eapply G; [exact E6|reflexivity|]; cbn; tauto|].
    destruct (e =? 114) eqn:E7; [apply N.eqb_eq in E7; injection H as <-; eapply G; [exact E7|reflexivity|]; cbn; tauto|].
    destruct (e =? 116) eqn:E8; [apply N.eqb_eq in E8; injection H as <-; eapply G; [exact E8|reflexivity|]; cbn; tauto|]. discriminate.
  - intros H. cbn in H. repeat (destruct H as [H|H]; [injection H as <- <-; reflexivity|]). destruct H.
Qed.
Lemma short_not_u : forall c, ~ In (117, c) escapes.
Proof. intros c H. apply short_spec in H. discriminate. Qed.
Lemma string_complete : forall s t, string_text s t -> forall rest, read_string (t ++ rest) = Some (s, rest).
Proof.
  induction 1 as [|c s t H1 H2 H3 _ IH|e c s t H _ IH|h u s t Hh Hu _ IH|h u k l s t Hh Hk Hu Hl _ IH]; intros rest.
  - reflexivity.
  - cbn [app read_string]. apply N.eqb_neq in H2, H3. rewrite H2, H3. replace (c <? 32) with false by (symmetry; apply N.ltb_ge; exact H1). rewrite IH. reflexivity.
  - cbn [app read_string]. change (92 =? 34) with false. change (92 =? 92) with true. cbv iota. destruct (N.eqb_spec e 117) as [->|N]; [exfalso; exact (short_not_u c H)|].
    rewrite (proj2 (short_spec e c) H), IH. reflexivity.
  - destruct (four_inv h u Hh) as (a & b & c & d & -> & H4). cbn [app read_string]. change (92 =? 34) with false. change (92 =? 92) with true. change (117 =? 117) with true. cbv iota.
    rewrite H4. rewrite !between_f by lia. rewrite IH. reflexivity.
  - destruct (four_inv h u Hh) as (a & b & c & d & -> & H4). destruct (four_inv k l Hk) as (a2 & b2 & c2 & d2 & -> & H5). cbn [app read_string]. change (92 =? 34) with false. change (92 =? 92) with true. change (117 =? 117) with true. cbv iota.
    rewrite H4. rewrite between_t by lia. cbn [andb]. rewrite H5, between_t by lia. rewrite IH. reflexivity.
Qed.
Lemma push_some : forall c r s rest, push c r = Some (s, rest) -> exists t, s = c :: t /\ r = Some (t, rest).
Proof. intros c [[t q]|] s rest H; [|discriminate]. injection H as <- <-. eauto. Qed.
Lemma string_sound : forall n x s rest, (List.length x <= n)%nat -> read_string x = Some (s, rest) -> exists t, x = t ++ rest /\ string_text s t.
Proof.
  induction n as [|n IH]; intros x s rest Hn H; [destruct x; [discriminate|cbn in Hn; lia]|]. destruct x as [|c r]; [discriminate|]. cbn [read_string] in H. cbn [List.length] in Hn.
  destruct (N.eqb_spec c 34) as [->|N1]; [injection H as <- <-; exists [34]; split; [reflexivity|constructor]|].
  destruct (N.eqb_spec c 92) as [->|N2].
  - destruct r as [|e r]; [discriminate|]. cbn [List.length] in Hn. destruct (N.eqb_spec e 117) as [->|N3].
    + destruct r as [|h1 [|h2 [|h3 [|h4 r]]]]; try discriminate. destruct (hex4 h1 h2 h3 h4) as [u|] eqn:Hu; [|discriminate]. apply hex4_spec in Hu. cbn [List.length] in Hn.
      destruct (between 55296 56319 u) eqn:B1.
      * apply between_spec in B1. destruct r as [|b [|v [|k1 [|k2 [|k3 [|k4 r]]]]]]; try discriminate. destruct (N.eqb_spec b 92) as [->|]; [|discriminate]. destruct (N.eqb_spec v 117) as [->|]; [|discriminate]. cbn [andb] in H.
        destruct (hex4 k1 k2 k3 k4) as [l|] eqn:Hl; [|discriminate]. apply hex4_spec in Hl. destruct (between 56320 57343 l) eqn:B2; [|discriminate]. apply between_spec in B2.
        apply push_some in H. destruct H as (s' & -> & H). cbn [List.length] in Hn. destruct (IH r s' rest ltac:(lia) H) as (t & -> & T).
        exists (92 :: 117 :: [h1; h2; h3; h4] ++ 92 :: 117 :: [k1; k2; k3; k4] ++ t). split; [reflexivity|]. apply s_pair; assumption.
      * destruct (between 56320 57343 u) eqn:B2; [discriminate|]. apply push_some in H. destruct H as (s' & -> & H). destruct (IH r s' rest ltac:(lia) H) as (t & -> & T).
        exists (92 :: 117 :: [h1; h2; h3; h4] ++ t). split; [reflexivity|]. apply s_code; [exact Hu| |exact T]. intros X.
        assert (Y : 55296 <= u <= 56319 \/ 56320 <= u <= 57343) by lia. destruct Y as [Y|Y]; [rewrite (between_t _ _ _ Y) in B1; discriminate|rewrite (between_t _ _ _ Y) in B2; discriminate].
    + destruct (short_escape e) as [y|] eqn:S; [|discriminate]. apply short_spec in S. apply push_some in H. destruct H as (s' & -> & H). destruct (IH r s' rest ltac:(lia) H) as (t & -> & T).
      exists (92 :: e :: t). split; [reflexivity|]. apply s_short; assumption.
  - destruct (N.ltb_spec c 32) as [|L]; [discriminate|]. apply push_some in H. destruct H as (s' & -> & H). destruct (IH r s' rest ltac:(lia) H) as (t & -> & T).
    exists (c :: t). split; [reflexivity|]. apply s_plain; assumption.
Qed.

(** ** White space *)
Lemma white_spec : forall c, json_white c = true <-> In c [32; 9; 10; 13].
Proof. intros c. unfold json_white. rewrite !orb_true_iff, !N.eqb_eq. cbn [In]. lia. Qed.
Definition solid (s : str) : Prop := match s with c :: _ => json_white c = false | [] => True end.
Lemma skip_spec : forall w s, white w -> solid s -> skip_white (w ++ s) = s.
Proof. intros w s W S. unfold skip_white. rewrite take_while_eq; [reflexivity| |exact S]. apply (forall_b json_white _ w white_spec). exact W. Qed.
Lemma skip_sound : forall s, exists w, white w /\ s = w ++ skip_white s /\ solid (skip_white s).
Proof.
  intros s. exists (fst (take_while json_white s)). split; [|split].
  - apply (forall_b json_white _ _ white_spec). apply take_while_all.
  - symmetry. apply take_while_app.
  - apply take_while_stop.
Qed.
Lemma skip_solid : forall s, solid s -> skip_white s = s. Proof. intros s S. exact (skip_spec [] s (Forall_nil _) S). Qed.

(** ** Numbers *)
Lemma nondigit : forall c, ~ digit c -> is_digit c = false. Proof. intros c H. apply (reflect_false _ _ (digit_spec c)). exact H. Qed.
Lemma take_digits : forall d s, Forall digit d -> match s with c :: _ => ~ digit c | [] => True end -> take_while is_digit (d ++ s) = (d, s).
Proof. intros d s D S. apply take_while_eq; [apply (forall_b is_digit _ d digit_spec); exact D|]. destruct s; [exact I|]. apply nondigit. exact S. Qed.
Lemma digits_complete : forall d s, some_digits d -> match s with c :: _ => ~ digit c | [] => True end -> read_digits (d ++ s) = Some (d, s).
Proof. intros d s [N D] S. unfold read_digits. rewrite take_digits by assumption. destruct d; [contradiction N; reflexivity|reflexivity]. Qed.
Lemma digits_sound : forall s d r, read_digits s = Some (d, r) -> s = d ++ r /\ some_digits d.
Proof.
  intros s d r H. unfold read_digits in H. pose proof (take_while_app is_digit s) as A. pose proof (take_while_all is_digit s) as B. destruct (take_while is_digit s) as [[|c t] q]; [discriminate|]. cbn [fst snd] in *.
  injection H as <- <-. split; [symmetry; exact A|]. split; [discriminate|]. apply (forall_b is_digit _ _ digit_spec). exact B.
Qed.
Lemma exponent_complete : forall e s, (e = [] \/ exists x g d, e = x :: g ++ d /\ (x = 101 \/ x = 69) /\ (g = [] \/ g = [43] \/ g = [45]) /\ some_digits d) -> num_stop s -> read_exponent (e ++ s) = Some (e, s).
Proof.
  intros e s [->|(x & g & d & -> & Hx & Hg & Hd)] S.
  - cbn [app]. unfold read_exponent. destruct s as [|c s]; [reflexivity|]. cbn in S. replace (c =? 101) with false by (symmetry; apply N.eqb_neq; tauto). replace (c =? 69) with false by (symmetry; apply N.eqb_neq; tauto). reflexivity.
  - assert (S' : match s with c :: _ => ~ digit c | [] => True end) by (destruct s; [exact I|apply S]). pose proof (digits_complete d s Hd S') as R. cbn [app]. unfold read_exponent. replace ((x =? 101) || (x =? 69)) with true by (destruct Hx as [-> | ->]; reflexivity).
    destruct Hg as [->|[-> | ->]]; cbn [app].
    + destruct Hd as [Nd Fd]. destruct d as [|c d]; [contradiction Nd; reflexivity|]. cbn [app] in *. inversion Fd as [|c' d' Hc Hd']; subst. replace ((c =? 43) || (c =? 45)) with false; [exact (f_equal (push x) R)|].
      symmetry. apply orb_false_iff. unfold digit in Hc. split; apply N.eqb_neq; lia.
    + exact (f_equal (fun r => push x (push 43 r)) R).
    + exact (f_equal (fun r => push x (push 45 r)) R).
Qed.
Lemma exponent_sound : forall s e r, read_exponent s = Some (e, r) -> s = e ++ r /\ (e = [] \/ exists x g d, e = x :: g ++ d /\ (x = 101 \/ x = 69) /\ (g = [] \/ g = [43] \/ g = [45]) /\ some_digits d).
Proof.
  intros s e r H. unfold read_exponent in H. destruct s as [|c s]; [injection H as <- <-; auto|]. destruct ((c =? 101) || (c =? 69)) eqn:K; [|injection H as <- <-; auto].
  assert (Hc : c = 101 \/ c = 69) by (apply orb_true_iff in K; rewrite !N.eqb_eq in K; exact K). destruct s as [|g s]; [discriminate|]. destruct ((g =? 43) || (g =? 45)) eqn:G.
  - assert (Hg : g = 43 \/ g = 45) by (apply orb_true_iff in G; rewrite !N.eqb_eq in G; exact G). apply push_some in H. destruct H as (e1 & -> & H). apply push_some in H. destruct H as (d & -> & H). apply digits_sound in H. destruct H as [-> D].
    split; [reflexivity|]. right. exists c, [g], d. split; [reflexivity|]. split; [exact Hc|]. split; [destruct Hg; subst; auto|exact D].
  - apply push_some in H. destruct H as (d & -> & H). apply digits_sound in H. destruct H as [E D]. split; [cbn; rewrite E; reflexivity|]. right. exists c, [], d. auto.
Qed.
Lemma fraction_complete : forall f s, (f = [] \/ exists d, f = 46 :: d /\ some_digits d) -> match s with c :: _ => ~ digit c /\ c <> 46 | [] => True end -> read_fraction (f ++ s) = Some (f, s).
Proof.
  intros f s [->|(d & -> & D)] S.
  - cbn [app]. unfold read_fraction. destruct s as [|c s]; [reflexivity|]. destruct S as [_ S]. apply N.eqb_neq in S. rewrite S. reflexivity.
  - cbn [app]. unfold read_fraction. change (46 =? 46) with true. cbv iota. refine (f_equal (push 46) (digits_complete d s D _)). destruct s; [exact I|apply S].
Qed.
Lemma fraction_sound : forall s f r, read_fraction s = Some (f, r) -> s = f ++ r /\ (f = [] \/ exists d, f = 46 :: d /\ some_digits d).
Proof.
  intros s f r H. unfold read_fraction in H. destruct s as [|c s]; [injection H as <- <-; auto|]. destruct (N.eqb_spec c 46) as [->|]; [|injection H as <- <-; auto].
  apply push_some in H. destruct H as (d & -> & H). apply digits_sound in H. destruct H as [-> D]. split; [reflexivity|]. right. exists d. auto.
Qed.
Definition int_part (i : str) : Prop := i = [48] \/ exists c t, i = c :: t /\ 49 <= c <= 57 /\ Forall digit t.
Lemma int_complete : forall i s, int_part i -> match s with c :: _ => ~ digit c | [] => True end -> read_int (i ++ s) = Some (i, s).
Proof.
  intros i s [->|(c & t & -> & C & T)] S.
  - cbn [app]. unfold read_int. change (48 =? 48) with true. cbv iota. destruct s as [|d s]; [reflexivity|]. rewrite (nondigit d S). reflexivity.
  - cbn [app]. unfold read_int. replace (c =? 48) with false by (symmetry; apply N.eqb_neq; lia). replace (is_digit c) with true by (symmetry; apply digit_spec; unfold digit; lia). rewrite take_digits by assumption. reflexivity.
Qed.
Lemma int_sound : forall s i r, read_int s = Some (i, r) -> s = i ++ r /\ int_part i.
Proof.
  intros s i r H. unfold read_int in H. destruct s as [|c s]; [discriminate|]. destruct (N.eqb_spec c 48) as [->|N].
  - destruct s as [|d s]; [injection H as <- <-; split; [reflexivity|left; reflexivity]|]. destruct (is_digit d); [discriminate|]. injection H as <- <-. split; [reflexivity|left; reflexivity].
  - destruct (is_digit c) eqn:D; [|discriminate]. apply digit_spec in D. pose proof (take_while_app is_digit s) as A. pose proof (take_while_all is_digit s) as B. destruct (take_while is_digit s) as [t q]. cbn [fst snd] in *. injection H as <- <-.
    split; [rewrite <- A; reflexivity|]. right. exists c, t. split; [reflexivity|]. split; [unfold digit in D; lia|]. apply (forall_b is_digit _ _ digit_spec). exact B.
Qed.
Lemma unsigned_complete : forall i f e s, int_part i -> (f = [] \/ exists d, f = 46 :: d /\ some_digits d) ->
  (e = [] \/ exists x g d, e = x :: g ++ d /\ (x = 101 \/ x = 69) /\ (g = [] \/ g = [43] \/ g = [45]) /\ some_digits d) -> num_stop s -> read_unsigned ((i ++ f ++ e) ++ s) = Some (i ++ f ++ e, s).
Proof.
  intros i f e s I0 F E S. unfold read_unsigned. rewrite <- app_assoc, <- (app_assoc f).
  assert (SE : match e ++ s with c :: _ => ~ digit c /\ c <> 46 | [] => True end).
  { destruct E as [->|(x & g & d & -> & Hx & _)]; cbn [app]; [destruct s; [exact I|unfold num_stop in S; tauto]|]. destruct Hx as [-> | ->]; unfold digit; split; lia. }
  assert (SF : match f ++ e ++ s with c :: _ => ~ digit c | [] => True end).
  { destruct F as [->|(d & -> & _)]; cbn [app]; [destruct (e ++ s); [exact I|tauto]|]. unfold digit. lia. }
  rewrite (int_complete i (f ++ e ++ s) I0 SF), (fraction_complete f (e ++ s) F SE), (exponent_complete e s E S). reflexivity.
Qed.
Lemma unsigned_sound : forall s n r, read_unsigned s = Some (n, r) -> s = n ++ r /\ exists i f e, n = i ++ f ++ e /\ int_part i /\ (f = [] \/ exists d, f = 46 :: d /\ some_digits d) /\
  (e = [] \/ exists x g d, e = x :: g ++ d /\ (x = 101 \/ x = 69) /\ (g = [] \/ g = [43] \/ g = [45]) /\ some_digits d).
Proof.
  intros s n r H. unfold read_unsigned in H. destruct (read_int s) as [[i r1]|] eqn:A; [|discriminate]. destruct (read_fraction r1) as [[f r2]|] eqn:B; [|discriminate]. destruct (read_exponent r2) as [[e r3]|] eqn:C; [|discriminate].
  injection H as <- <-. apply int_sound in A. apply fraction_sound in B. apply exponent_sound in C. destruct A as [-> A], B as [-> B], C as [-> C]. split; [rewrite <- !app_assoc; reflexivity|]. exists i, f, e. auto.
Qed.
Lemma int_first : forall i s, int_part i -> exists c r, i ++ s = c :: r /\ 48 <= c <= 57.
Proof. intros i s [->|(c & t & -> & C & _)]; eexists _, _; (split; [reflexivity|lia]). Qed.
Lemma unsigned_number : forall s, (exists c r, s = c :: r /\ c <> 45) -> read_number s = read_unsigned s.
Proof. intros s (c & r & -> & N). unfold read_number. apply N.eqb_neq in N. rewrite N. reflexivity. Qed.
Lemma number_complete : forall n s, number_text n -> num_stop s -> read_number (n ++ s) = Some (n, s).
Proof.
  intros n s N S. destruct N as [sign i f e Hs Hi Hf He]. pose proof (unsigned_complete i f e s Hi Hf He S) as U. destruct Hs as [-> | ->]; cbn [app].
  - refine (eq_trans (unsigned_number _ _) U). destruct (int_first i ((f ++ e) ++ s) Hi) as (c & r & E & B). exists c, r. split; [|lia]. exact (eq_trans (eq_sym (app_assoc i (f ++ e) s)) E).
  - exact (f_equal (push 45) U).
Qed.
Lemma number_sound : forall s n r, read_number s = Some (n, r) -> s = n ++ r /\ number_text n.
Proof.
  intros s n r H. unfold read_number in H. destruct s as [|c s]; [discriminate|]. destruct (N.eqb_spec c 45) as [->|_].
  - apply push_some in H. destruct H as (n' & -> & H). apply unsigned_sound in H. destruct H as (-> & i & f & e & -> & A & B & C). split; [reflexivity|]. apply (n_text [45] i f e); auto.
  - apply unsigned_sound in H. destruct H as (E & i & f & e & -> & A & B & C). split; [exact E|]. apply (n_text [] i f e); auto.
Qed.
Lemma number_first : forall n, number_text n -> exists c r, n = c :: r /\ (c = 45 \/ 48 <= c <= 57).
Proof. intros n [sign i f e [-> | ->] Hi _ _]; [|eexists _, _; split; [reflexivity|auto]]. destruct (int_first i (f ++ e) Hi) as (c & r & E & B). exists c, r. cbn [app]. auto. Qed.

(** ** Values *)
Lemma word_complete : forall w s, read_word w (w ++ s) = Some s.
Proof. induction w as [|c w IH]; intros s; [reflexivity|]. cbn [app read_word]. rewrite N.eqb_refl. apply IH. Qed.
Lemma word_sound : forall w s r, read_word w s = Some r -> s = w ++ r.
Proof. induction w as [|c w IH]; intros s r H; [injection H as <-; reflexivity|]. destruct s as [|x s]; [discriminate|]. cbn [read_word] in H. destruct (N.eqb_spec c x) as [->|]; [|discriminate]. cbn [app]. f_equal. apply IH. exact H. Qed.
Lemma value_first : forall j s, value_text j s -> exists c r, s = c :: r /\ json_white c = false /\ c <> 93 /\ c <> 125.
Proof.
  intros j s H. destruct H; try (eexists _, _; split; [reflexivity|]; split; [reflexivity|split; discriminate]).
  destruct (number_first s H) as (c & r & -> & B). exists c, r. split; [reflexivity|]. split; [|split; lia].
  destruct (json_white c) eqn:W; [|reflexivity]. apply white_spec in W. cbn in W. lia.
Qed.
Lemma skip_again : forall s, skip_white (skip_white s) = skip_white s.
Proof. intros s. apply skip_solid. destruct (skip_sound s) as (_ & _ & _ & S). exact S. Qed.
Lemma value_skip : forall f s, read_value f (skip_white s) = read_value f s.
Proof. intros [|f] s; [reflexivity|]. cbn [read_value]. rewrite skip_again. reflexivity. Qed.
Lemma elements_skip : forall f s, read_elements f (skip_white s) = read_elements f s.
Proof. intros [|f] s; [reflexivity|]. cbn [read_elements]. rewrite value_skip. reflexivity. Qed.
Lemma members_skip : forall f s, read_members f (skip_white s) = read_members f s.
Proof. intros [|f] s; [reflexivity|]. cbn [read_members]. rewrite skip_again. reflexivity. Qed.
Lemma stop_white : forall w c rest, white w -> c = 93 \/ c = 44 \/ c = 125 -> num_stop (w ++ c :: rest).
Proof.
  intros w c rest W C. destruct W as [|x w X _]; cbn [app num_stop]; unfold digit; [lia|]. cbn in X. lia.
Qed.
Lemma ends_white : forall j w c rest, white w -> c = 93 \/ c = 44 \/ c = 125 -> ends j (w ++ c :: rest).
Proof. intros j w c rest W C. destruct j; try exact I. apply stop_white; assumption. Qed.

Scheme value_ind' := Minimality for value_text Sort Prop
with elements_ind' := Minimality for elements_text Sort Prop
with members_ind' := Minimality for members_text Sort Prop.
Combined Scheme text_ind from value_ind', elements_ind', members_ind'.

Lemma value_step : forall f w s rest c r, white w -> s ++ rest = c :: r -> json_white c = false -> read_value (S f) (w ++ s ++ rest) =
  if c =? 123 then
    match skip_white r with
    | d :: r' => if d =? 125 then Some (JObject [], r') else match read_members f (d :: r') with Some (l, r') => Some (JObject l, r') | None => None end
    | [] => None
    end
  else if c =? 91 then
    match skip_white r with
    | d :: r' => if d =? 93 then Some (JArray [], r') else match read_elements f (d :: r') with Some (l, r') => Some (JArray l, r') | None => None end
    | [] => None
    end
  else read_atom (c :: r).
Proof. intros f w s rest c r W E C. cbn [read_value]. rewrite E. rewrite (skip_spec w (c :: r) W C). reflexivity. Qed.
Lemma atom_number : forall n s, number_text n -> num_stop s -> exists c r, n ++ s = c :: r /\ json_white c = false /\ c <> 123 /\ c <> 91 /\ read_atom (c :: r) = Some (JNumber n, s).
Proof.
  intros n s N S. pose proof (number_complete n s N S) as R. destruct (number_first n N) as (c & r & -> & B). exists c, (r ++ s). split; [reflexivity|].
  split; [destruct (json_white c) eqn:W; [|reflexivity]; apply white_spec in W; cbn in W; lia|]. split; [lia|]. split; [lia|]. unfold read_atom.
  replace (c =? 34) with false by (symmetry; apply N.eqb_neq; lia). replace (c =? 110) with false by (symmetry; apply N.eqb_neq; lia). replace (c =? 116) with false by (symmetry; apply N.eqb_neq; lia). replace (c =? 102) with false by (symmetry; apply N.eqb_neq; lia).
  change ((c :: r) ++ s) with (c :: r ++ s) in R. rewrite R. reflexivity.
Qed.
Lemma app4 : forall (a t b : str) (c : char) u x, (a ++ t ++ b ++ c :: u) ++ x = a ++ t ++ b ++ c :: u ++ x.
Proof. intros. rewrite <- !app_assoc. reflexivity. Qed.
Lemma app3 : forall (a t b : str) x, (a ++ t ++ b) ++ x = a ++ t ++ b ++ x.
Proof. intros. rewrite <- !app_assoc. reflexivity. Qed.
Definition V_ok (j : json) (s : str) : Prop := forall f rest w, (2 * List.length s + 1 <= f)%nat -> ends j rest -> white w -> read_value f (w ++ s ++ rest) = Some (j, rest).
Definition E_ok (l : list json) (t : str) : Prop := (exists w c r, t = w ++ c :: r /\ white w /\ json_white c = false /\ c <> 93) /\
  forall f rest, (2 * List.length t + 2 <= f)%nat -> read_elements f (t ++ 93 :: rest) = Some (l, rest).
Definition M_ok (l : list (str * json)) (t : str) : Prop := (exists w c r, t = w ++ c :: r /\ white w /\ json_white c = false /\ c <> 125) /\
  forall f rest, (2 * List.length t + 2 <= f)%nat -> read_members f (t ++ 125 :: rest) = Some (l, rest).
Lemma skip_first : forall t (x : char) rest, (exists w c r, t = w ++ c :: r /\ white w /\ json_white c = false /\ c <> x) ->
  exists c r, skip_white (t ++ x :: rest) = c :: r /\ (c =? x) = false.
Proof.
  intros t x rest (w & c & r & -> & W & C & N). exists c, (r ++ x :: rest). rewrite <- app_assoc. split; [exact (skip_spec w (c :: r ++ x :: rest) W C)|apply N.eqb_neq; exact N].
Qed.
Ltac ih t := let H := fresh in pose proof t as H; unfold str, char in H |- *; rewrite H; clear H.
Ltac skp b x B := let H := fresh in pose proof (skip_spec b x B eq_refl) as H; unfold str, char in H |- *; rewrite H; clear H.
Lemma complete : (forall j s, value_text j s -> V_ok j s) /\ (forall l t, elements_text l t -> E_ok l t) /\ (forall l t, members_text l t -> M_ok l t).
Proof.
  apply text_ind.
  - intros f rest w Hf _ W. destruct f as [|f]; [cbn in Hf; lia|]. rewrite (value_step f w (lit "null") rest 110 (lit "ull" ++ rest) W eq_refl eq_refl). reflexivity.
  - intros f rest w Hf _ W. destruct f as [|f]; [cbn in Hf; lia|]. rewrite (value_step f w (lit "true") rest 116 (lit "rue" ++ rest) W eq_refl eq_refl). reflexivity.
  - intros f rest w Hf _ W. destruct f as [|f]; [cbn in Hf; lia|]. rewrite (value_step f w (lit "false") rest 102 (lit "alse" ++ rest) W eq_refl eq_refl). reflexivity.
  - intros s N f rest w Hf S W. destruct f as [|f]; [lia|]. destruct (atom_number s rest N S) as (c & r & E & C & N1 & N2 & R). rewrite (value_step f w s rest c r W E C).
    apply N.eqb_neq in N1, N2. rewrite N1, N2. exact R.
  - intros s t T f rest w Hf _ W. destruct f as [|f]; [cbn in Hf; lia|]. rewrite (value_step f w (34 :: t) rest 34 (t ++ rest) W eq_refl eq_refl).
    change (34 =? 123) with false. change (34 =? 91) with false. cbv iota. unfold read_atom. change (34 =? 34) with true. cbv iota. ih (string_complete s t T rest). reflexivity.
  - intros v V f rest w Hf _ W. destruct f as [|f]; [cbn in Hf; lia|].
    assert (E : (91 :: v ++ [93]) ++ rest = 91 :: v ++ 93 :: rest) by (cbn [app]; rewrite <- app_assoc; reflexivity).
    rewrite (value_step f w _ rest 91 _ W E eq_refl). change (91 =? 123) with false. change (91 =? 91) with true. cbv iota.
    skp v (93 :: rest) V. reflexivity.
  - intros l t _ [F H] f rest w Hf _ W. destruct f as [|f]; [cbn in Hf; lia|].
    assert (E : (91 :: t ++ [93]) ++ rest = 91 :: t ++ 93 :: rest) by (cbn [app]; rewrite <- app_assoc; reflexivity).
    rewrite (value_step f w _ rest 91 _ W E eq_refl). change (91 =? 123) with false. change (91 =? 91) with true. cbv iota.
    cbn [List.length] in Hf. rewrite app_length in Hf. cbn [List.length] in Hf. specialize (H f rest ltac:(lia)). rewrite <- elements_skip in H.
    destruct (skip_first t 93 rest F) as (c & r & K & N). unfold str, char in *. rewrite K in H. rewrite K, N, H. reflexivity.
  - intros v V f rest w Hf _ W. destruct f as [|f]; [cbn in Hf; lia|].
    assert (E : (123 :: v ++ [125]) ++ rest = 123 :: v ++ 125 :: rest) by (cbn [app]; rewrite <- app_assoc; reflexivity).
    rewrite (value_step f w _ rest 123 _ W E eq_refl). change (123 =? 123) with true. cbv iota.
    skp v (125 :: rest) V. reflexivity.
  - intros l t _ [F H] f rest w Hf _ W. destruct f as [|f]; [cbn in Hf; lia|].
    assert (E : (123 :: t ++ [125]) ++ rest = 123 :: t ++ 125 :: rest) by (cbn [app]; rewrite <- app_assoc; reflexivity).
    rewrite (value_step f w _ rest 123 _ W E eq_refl). change (123 =? 123) with true. cbv iota.
    cbn [List.length] in Hf. rewrite app_length in Hf. cbn [List.length] in Hf. specialize (H f rest ltac:(lia)). rewrite <- members_skip in H.
    destruct (skip_first t 125 rest F) as (c & r & K & N). unfold str, char in *. rewrite K in H. rewrite K, N, H. reflexivity.
  - intros j a t b A T IH B. split.
    + destruct (value_first j t T) as (c & r & -> & C & N & _). exists a, c, (r ++ b). split; [reflexivity|]. auto.
    + intros f rest Hf. destruct f as [|f]; [lia|]. rewrite !app_length in Hf. assert (L1 : (2 * List.length t + 1 <= f)%nat) by lia. rewrite app3. cbn [read_elements]. ih (IH f (b ++ 93 :: rest) a L1 (ends_white j b 93 rest B ltac:(auto)) A).
      skp b (93 :: rest) B. reflexivity.
  - intros j a t b l u A T IH B _ [_ IHl]. split.
    + destruct (value_first j t T) as (c & r & -> & C & N & _). exists a, c, (r ++ b ++ 44 :: u). split; [reflexivity|]. auto.
    + intros f rest Hf. destruct f as [|f]; [lia|]. rewrite !app_length in Hf. cbn [List.length] in Hf. assert (L1 : (2 * List.length t + 1 <= f)%nat) by lia. assert (L2 : (2 * List.length u + 2 <= f)%nat) by lia. rewrite app4. cbn [read_elements].
      ih (IH f (b ++ 44 :: u ++ 93 :: rest) a L1 (ends_white j b 44 _ B ltac:(auto)) A). skp b (44 :: u ++ 93 :: rest) B. change (44 =? 93) with false. change (44 =? 44) with true. cbv iota.
      ih (IHl f rest L2). reflexivity.
  - intros a k q b c j t d A K B C T IH D. split.
    + exists a, 34, (q ++ b ++ 58 :: c ++ t ++ d). split; [reflexivity|]. split; [exact A|]. split; [reflexivity|discriminate].
    + intros f rest Hf. destruct f as [|f]; [lia|]. rewrite !app_length in Hf. cbn [List.length] in Hf. rewrite !app_length in Hf. cbn [List.length] in Hf. rewrite !app_length in Hf.
      assert (L1 : (2 * List.length t + 1 <= f)%nat) by lia. assert (E : (a ++ 34 :: q ++ b ++ 58 :: c ++ t ++ d) ++ 125 :: rest = a ++ 34 :: q ++ b ++ 58 :: c ++ t ++ d ++ 125 :: rest) by (rewrite <- !app_assoc; cbn [app]; rewrite <- !app_assoc; cbn [app]; rewrite <- !app_assoc; reflexivity).
      ih E. cbn [read_members]. skp a (34 :: q ++ b ++ 58 :: c ++ t ++ d ++ 125 :: rest) A. change (34 =? 34) with true. cbv iota. ih (string_complete k q K).
      skp b (58 :: c ++ t ++ d ++ 125 :: rest) B. change (58 =? 58) with true. cbv iota. ih (IH f (d ++ 125 :: rest) c L1 (ends_white j d 125 _ D ltac:(auto)) C).
      skp d (125 :: rest) D. reflexivity.
  - intros a k q b c j t d l u A K B C T IH D _ [_ IHl]. split.
    + exists a, 34, (q ++ b ++ 58 :: c ++ t ++ d ++ 44 :: u). split; [reflexivity|]. split; [exact A|]. split; [reflexivity|discriminate].
    + intros f rest Hf. destruct f as [|f]; [lia|]. rewrite !app_length in Hf. cbn [List.length] in Hf. rewrite !app_length in Hf. cbn [List.length] in Hf. rewrite !app_length in Hf. cbn [List.length] in Hf.
      assert (L1 : (2 * List.length t + 1 <= f)%nat) by lia. assert (L2 : (2 * List.length u + 2 <= f)%nat) by lia. assert (E : (a ++ 34 :: q ++ b ++ 58 :: c ++ t ++ d ++ 44 :: u) ++ 125 :: rest = a ++ 34 :: q ++ b ++ 58 :: c ++ t ++ d ++ 44 :: u ++ 125 :: rest) by (rewrite <- !app_assoc; cbn [app]; rewrite <- !app_assoc; cbn [app]; rewrite <- !app_assoc; reflexivity).
      ih E. cbn [read_members]. skp a (34 :: q ++ b ++ 58 :: c ++ t ++ d ++ 44 :: u ++ 125 :: rest) A. change (34 =? 34) with true. cbv iota. ih (string_complete k q K).
      skp b (58 :: c ++ t ++ d ++ 44 :: u ++ 125 :: rest) B. change (58 =? 58) with true. cbv iota. ih (IH f (d ++ 44 :: u ++ 125 :: rest) c L1 (ends_white j d 44 _ D ltac:(auto)) C).
      skp d (44 :: u ++ 125 :: rest) D. change (44 =? 125) with false. change (44 =? 44) with true. cbv iota. ih (IHl f rest L2). reflexivity.
Qed.

Lemma atom_sound : forall s j rest, read_atom s = Some (j, rest) -> exists t, s = t ++ rest /\ value_text j t.
Proof.
  intros s j rest H. unfold read_atom in H. destruct s as [|c r]; [discriminate|]. destruct (N.eqb_spec c 34) as [->|].
  - destruct (read_string r) as [[t q]|] eqn:K; [|discriminate]. injection H as <- <-. destruct (string_sound _ r t q (le_n _) K) as (u & -> & U). exists (34 :: u). split; [reflexivity|constructor; exact U].
  - assert (L : forall w k, read_literal w k (c :: r) = Some (j, rest) -> c :: r = w ++ rest /\ k = j).
    { intros w k X. unfold read_literal in X. destruct (read_word w (c :: r)) eqn:Y; [|discriminate]. injection X as <- <-. split; [apply word_sound; exact Y|reflexivity]. }
    destruct (c =? 110); [apply L in H; destruct H as [E <-]; exists (lit "null"); split; [exact E|constructor]|].
    destruct (c =? 116); [apply L in H; destruct H as [E <-]; exists (lit "true"); split; [exact E|constructor]|].
    destruct (c =? 102); [apply L in H; destruct H as [E <-]; exists (lit "false"); split; [exact E|constructor]|].
    destruct (read_number (c :: r)) as [[t q]|] eqn:K; [|discriminate]. injection H as <- <-. apply number_sound in K. destruct K as [E K]. exists t. split; [exact E|constructor; exact K].
Qed.
Lemma sound : forall f,
  (forall s j rest, read_value f s = Some (j, rest) -> exists w t, white w /\ s = w ++ t ++ rest /\ value_text j t) /\
  (forall s l rest, read_elements f s = Some (l, rest) -> exists t, s = t ++ 93 :: rest /\ elements_text l t) /\
  (forall s l rest, read_members f s = Some (l, rest) -> exists t, s = t ++ 125 :: rest /\ members_text l t).
Proof.
  induction f as [|f (IV & IE & IM)]; [repeat split; discriminate|]. split; [|split].
  - intros s j rest H. cbn [read_value] in H. destruct (skip_sound s) as (w & W & E & _). destruct (skip_white s) as [|c r]; [discriminate|].
    destruct (N.eqb_spec c 123) as [->|_]; [|destruct (N.eqb_spec c 91) as [->|_]].
    + destruct (skip_sound r) as (v & V & Er & _). destruct (skip_white r) as [|d r'] eqn:K; [discriminate|]. destruct (N.eqb_spec d 125) as [->|_].
      * injection H as <- <-. exists w, (123 :: v ++ [125]). split; [exact W|]. split; [rewrite E, Er; cbn [app]; rewrite <- app_assoc; reflexivity|constructor; exact V].
      * rewrite <- K, members_skip in H. destruct (read_members f r) as [[l q]|] eqn:R; [|discriminate]. injection H as <- <-. apply IM in R. destruct R as (t & Et & T).
        exists w, (123 :: t ++ [125]). split; [exact W|]. split; [rewrite E, Et; cbn [app]; rewrite <- app_assoc; reflexivity|constructor; exact T].
    + destruct (skip_sound r) as (v & V & Er & _). destruct (skip_white r) as [|d r'] eqn:K; [discriminate|]. destruct (N.eqb_spec d 93) as [->|_].
      * injection H as <- <-. exists w, (91 :: v ++ [93]). split; [exact W|]. split; [rewrite E, Er; cbn [app]; rewrite <- app_assoc; reflexivity|constructor; exact V].
      * rewrite <- K, elements_skip in H. destruct (read_elements f r) as [[l q]|] eqn:R; [|discriminate]. injection H as <- <-. apply IE in R. destruct R as (t & Et & T).
        exists w, (91 :: t ++ [93]). split; [exact W|]. split; [rewrite E, Et; cbn [app]; rewrite <- app_assoc; reflexivity|constructor; exact T].
    + destruct (atom_sound _ j rest H) as (t & Et & T). exists w, t. rewrite E, Et. auto.
  - intros s l rest H. cbn [read_elements] in H. destruct (read_value f s) as [[j r]|] eqn:R; [|discriminate]. apply IV in R. destruct R as (w & t & W & -> & T).
    destruct (skip_sound r) as (v & V & Er & _). destruct (skip_white r) as [|c r']; [discriminate|]. subst r. destruct (N.eqb_spec c 93) as [->|_]; [|destruct (N.eqb_spec c 44) as [->|_]; [|discriminate]].
    + injection H as <- <-. exists (w ++ t ++ v). split; [symmetry; apply app3|constructor; assumption].
    + destruct (read_elements f r') as [[l' q]|] eqn:R; [|discriminate]. injection H as <- <-. apply IE in R. destruct R as (u & -> & U). exists (w ++ t ++ v ++ 44 :: u). split; [symmetry; apply app4|constructor; assumption].
  - intros s l rest H. cbn [read_members] in H. destruct (skip_sound s) as (a & A & E & _). destruct (skip_white s) as [|q0 r]; [discriminate|]. destruct (N.eqb_spec q0 34) as [->|_]; [|discriminate].
    destruct (read_string r) as [[k r1]|] eqn:K; [|discriminate]. destruct (string_sound _ r k r1 (le_n _) K) as (q & -> & Q). clear K.
    destruct (skip_sound r1) as (b & B & E1 & _). destruct (skip_white r1) as [|c0 r2]; [discriminate|]. subst r1. destruct (N.eqb_spec c0 58) as [->|_]; [|discriminate].
    destruct (read_value f r2) as [[j r3]|] eqn:R; [|discriminate]. apply IV in R. destruct R as (c & t & C & -> & T).
    destruct (skip_sound r3) as (d & D & E3 & _). destruct (skip_white r3) as [|c1 r4]; [discriminate|]. subst r3. destruct (N.eqb_spec c1 125) as [->|_]; [|destruct (N.eqb_spec c1 44) as [->|_]; [|discriminate]].
    + injection H as <- <-. exists (a ++ 34 :: q ++ b ++ 58 :: c ++ t ++ d). split; [rewrite E; rewrite <- !app_assoc; cbn [app]; rewrite <- !app_assoc; cbn [app]; rewrite <- !app_assoc; reflexivity|constructor; assumption].
    + destruct (read_members f r4) as [[l' x]|] eqn:R; [|discriminate]. injection H as <- <-. apply IM in R. destruct R as (u & -> & U).
      exists (a ++ 34 :: q ++ b ++ 58 :: c ++ t ++ d ++ 44 :: u). split; [rewrite E; rewrite <- !app_assoc; cbn [app]; rewrite <- !app_assoc; cbn [app]; rewrite <- !app_assoc; reflexivity|constructor; assumption].
Qed.
Lemma json_complete : forall j w t rest, white w -> value_text j t -> ends j rest -> read_json (w ++ t ++ rest) = Some (j, rest).
Proof. intros j w t rest W T E. unfold read_json. apply (proj1 complete j t T); [|exact E|exact W]. rewrite !app_length. lia. Qed.
Lemma json_sound : forall s j rest, read_json s = Some (j, rest) -> exists w t, white w /\ s = w ++ t ++ rest /\ value_text j t.
Proof. intros s j rest H. exact (proj1 (sound _) s j rest H). Qed.
