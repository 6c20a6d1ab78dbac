(** * The four splitters read as specified *)
From Coq Require Import List NArith Bool Arith Lia String.
From Verif Require Import ModelBase ModelText ModelSplit SpecLex SpecLex2 ProofSplit ProofLex.
Import ListNotations.
Local Open Scope N_scope.

Section Reads.
Variables bin dollar : bool.
Definition middle : list rule := if dollar then [split_repl; split_numeric; split_identifier; split_with_operators (except operator_chars 36)]
  else [split_numeric; split_identifier; split_operator].
Definition the_rules : list rule := build_splitter (if bin then split_binary :: middle else middle) RemoveWhitespace.
Definition split_ (s : str) : list str := split_into_tokens the_rules s.

Definition is_op (c : char) : bool := is_operator_char c && negb (dollar && (c =? 36)).
Lemma is_op_spec : forall c, is_op c = true <-> operator_of dollar c.
Proof.
  intros c. unfold is_op, operator_of. rewrite andb_true_iff, op_spec, negb_true_iff. destruct dollar; simpl.
  - rewrite N.eqb_neq. split; intros [A B]; auto.
  - split; intros [A B]; split; auto; discriminate.
Qed.
Lemma with_is_op : forall c, dollar = true -> existsb (N.eqb c) (except operator_chars 36) = is_op c.
Proof.
  intros c Hd. unfold is_op. rewrite Hd. cbn [andb]. apply eq_true_iff_eq. rewrite andb_true_iff, negb_true_iff. unfold is_operator_char, except.
  rewrite !existsb_exists. split.
  - intros (x & Hx & He). apply N.eqb_eq in He. subst x. apply filter_In in Hx. destruct Hx as [H1 H2]. rewrite negb_true_iff in H2. split; [|exact H2].
    exists c. split; [exact H1|apply N.eqb_refl].
  - intros ((x & Hx & He) & Hn). apply N.eqb_eq in He. subst x. exists c. split; [|apply N.eqb_refl]. apply filter_In. split; [exact Hx|]. rewrite Hn. reflexivity.
Qed.
Lemma take_while_ext : forall p q, (forall c, p c = q c) -> forall s, take_while p s = take_while q s.
Proof. intros p q H. induction s as [|c s IH]; [reflexivity|]. simpl. rewrite H, IH. reflexivity. Qed.
Lemma tame_rules : Forall tame the_rules.
Proof.
  unfold the_rules, middle, build_splitter. destruct bin, dollar; simpl; repeat apply Forall_cons; try apply Forall_nil;
  first [apply tame_identifier|apply tame_numeric|apply tame_operator|apply tame_whitespace|apply tame_binary|apply tame_repl|apply tame_with_operators].
Qed.
Lemma split_cons' : forall c s, split_ (c :: s) = match fst (apply_rules the_rules c s) with
  | Some t => t :: split_ (snd (apply_rules the_rules c s)) | None => split_ (snd (apply_rules the_rules c s)) end.
Proof. intros. apply split_cons. apply tame_rules. Qed.

(** A binary number starts here. *)
Definition starts_bin (c : char) (s : str) : bool := bin && ((c =? 98) && match s with n :: _ => (n =? 49) || (n =? 48) | [] => false end).
Lemma apply_cases : forall c s, apply_rules the_rules c s =
  if starts_bin c s then (Some (c :: fst (take_while is_digit s)), snd (take_while is_digit s))
  else if dollar && (c =? 36) then (Some (c :: fst (take_while is_ident_char s)), snd (take_while is_ident_char s))
  else if is_digit c then (Some (c :: fst (numeric_tail false s)), snd (numeric_tail false s))
  else if is_ident_start c then (Some (c :: fst (take_while is_ident_char s)), snd (take_while is_ident_char s))
  else if is_op c then (Some (c :: fst (take_while is_op s)), snd (take_while is_op s))
  else if is_whitespace c then (None, s) else (Some [c], s).
Proof.
  intros c s. unfold the_rules, build_splitter.
  assert (M : apply_rules (middle ++ [skip_whitespace]) c s =
    if dollar && (c =? 36) then (Some (c :: fst (take_while is_ident_char s)), snd (take_while is_ident_char s))
    else if is_digit c then (Some (c :: fst (numeric_tail false s)), snd (numeric_tail false s))
    else if is_ident_start c then (Some (c :: fst (take_while is_ident_char s)), snd (take_while is_ident_char s))
    else if is_op c then (Some (c :: fst (take_while is_op s)), snd (take_while is_op s))
    else if is_whitespace c then (None, s) else (Some [c], s)).
  { unfold middle. destruct dollar eqn:Ed; cbn [app apply_rules andb].
    - unfold split_repl, split_numeric, split_identifier, split_with_operators, skip_whitespace. destruct (c =? 36) eqn:E0; [destruct (take_while is_ident_char s); reflexivity|].
      destruct (is_digit c); [destruct (numeric_tail false s); reflexivity|]. destruct (is_ident_start c); [destruct (take_while is_ident_char s); reflexivity|].
      assert (W : forall x, existsb (N.eqb x) (except operator_chars 36) = is_op x) by (intros x; apply with_is_op; exact Ed).
      rewrite W, (take_while_ext _ is_op W). destruct (is_op c); [destruct (take_while is_op s); reflexivity|].
      destruct (is_whitespace c); reflexivity.
    - unfold split_numeric, split_identifier, split_operator, skip_whitespace.
      destruct (is_digit c); [destruct (numeric_tail false s); reflexivity|]. destruct (is_ident_start c); [destruct (take_while is_ident_char s); reflexivity|].
      assert (W : forall x, is_operator_char x = is_op x) by (intros x; unfold is_op; rewrite Ed; simpl; rewrite andb_true_r; reflexivity).
      rewrite W, (take_while_ext _ is_op W). destruct (is_op c); [destruct (take_while is_op s); reflexivity|].
      destruct (is_whitespace c); reflexivity. }
  unfold starts_bin. destruct bin; cbn [andb]; [|exact M]. cbn [app apply_rules]. unfold split_binary. cbv zeta.
  destruct ((c =? 98) && _); [destruct (take_while is_digit s); reflexivity|exact M].
Qed.

Lemma op_of_not : forall c, operator_of dollar c -> ~ digit c /\ is_whitespace c = false /\ (c =? 98) = false /\ (dollar && (c =? 36)) = false.
Proof.
  intros c [H Hd]. split; [apply op_not_digit; exact H|]. split; [apply op_cases; exact H|]. split.
  - apply N.eqb_neq. intros ->. apply op_spec in H. discriminate.
  - destruct dollar; [|reflexivity]. simpl. apply N.eqb_neq. apply Hd. reflexivity.
Qed.
Lemma letter_not_36 : forall c, letter c -> (c =? 36) = false.
Proof. intros c H. apply N.eqb_neq. intros ->. unfold letter in H. lia. Qed.
Lemma digit_not : forall c, digit c -> (c =? 98) = false /\ (c =? 36) = false.
Proof. intros c H. unfold digit in H. split; apply N.eqb_neq; lia. Qed.
Lemma not_starts : forall c s, (c =? 98) = false -> starts_bin c s = false.
Proof. intros c s H. unfold starts_bin. rewrite H. apply andb_false_r. Qed.

Lemma reads_split : forall s ws, reads_as bin dollar s ws -> split_ s = ws.
Proof.
  induction 1 as [|c s ws Hc _ IH|n s ws Hb Hn Hs _ IH|n s ws Hd Hn Hs _ IH|n s ws Hn Hs _ IH|n s ws Hn Hp _ IH|n s ws Hn Hb Hs _ IH|n s ws Hne Ho Hl Hs _ IH|c s ws Hw H1 H2 H3 _ IH].
  - reflexivity.
  - rewrite split_cons', apply_cases. destruct (white_none c Hc) as (A & B & C).
    rewrite not_starts by (apply N.eqb_neq; intros ->; discriminate). replace (c =? 36) with false by (symmetry; apply N.eqb_neq; intros ->; discriminate).
    rewrite andb_false_r. apply (reflect_false _ _ (digit_spec c)) in A. apply (reflect_false _ _ (letter_spec c)) in B. apply (reflect_false _ _ (op_spec c)) in C.
    unfold is_op. rewrite A, B, C, Hc. exact IH.
  - destruct Hn as (d & t & -> & Hd & Ht). change ((98 :: d :: t) ++ s) with (98 :: (d :: t) ++ s). rewrite split_cons', apply_cases.
    assert (SB : starts_bin 98 ((d :: t) ++ s) = true) by (unfold starts_bin; rewrite Hb; destruct Hd as [-> | ->]; reflexivity). rewrite SB. rewrite take_while_eq; [cbv beta iota delta [fst snd]; rewrite IH; reflexivity| |].
    + constructor; [destruct Hd as [-> | ->]; reflexivity|]. apply (forall_b is_digit _ t digit_spec). exact Ht.
    + apply (stops_b is_digit _ s digit_spec). exact Hs.
  - destruct Hn as (t & -> & Ht). simpl app. rewrite split_cons', apply_cases, not_starts by reflexivity. rewrite Hd. cbn [andb N.eqb Pos.eqb]. rewrite take_while_eq; [cbv beta iota delta [fst snd]; rewrite IH; reflexivity| |].
    + apply (forall_b is_ident_char _ t ident_spec). exact Ht. + apply (stops_b is_ident_char _ s ident_spec). exact Hs.
  - destruct Hn as [[Hne Hd]|(a & b & -> & [Hne Ha] & Hb)].
    + destruct n as [|c t]; [congruence|]. inversion Hd; subst. simpl app. rewrite split_cons', apply_cases. destruct (digit_not c H1) as [A B]. rewrite not_starts, B, andb_false_r by exact A.
      rewrite (proj2 (digit_spec c) H1), (tail_digits t false s H2 Hs). reflexivity.
    + destruct a as [|c t]; [congruence|]. inversion Ha; subst. simpl app. rewrite split_cons', apply_cases. destruct (digit_not c H1) as [A B]. rewrite not_starts, B, andb_false_r by exact A.
      rewrite (proj2 (digit_spec c) H1), <- app_assoc. simpl app. rewrite (tail_point t b s (b ++ s) H2 (tail_digits b true s Hb Hs)). reflexivity.
  - destruct Hn as [[Hne Hd]|(a & b & -> & [Hne Ha] & Hb)].
    + exfalso. rewrite Forall_forall in Hd. apply Hd in Hp. apply point_not_digit. exact Hp.
    + destruct a as [|c t]; [congruence|]. inversion Ha; subst. simpl app. rewrite split_cons', apply_cases. destruct (digit_not c H1) as [A B]. rewrite not_starts, B, andb_false_r by exact A.
      rewrite (proj2 (digit_spec c) H1), <- app_assoc. simpl app. rewrite (tail_point t b s (b ++ point :: s) H2 (tail_second b s Hb)). reflexivity.
  - destruct Hn as (c & t & -> & Hc & Ht). simpl app. rewrite split_cons', apply_cases.
    assert (SB : starts_bin c (t ++ s) = false).
    { unfold starts_bin. destruct bin; [|reflexivity]. destruct (c =? 98) eqn:E; [|reflexivity]. apply N.eqb_eq in E. subst c. cbn [andb].
        destruct t as [|d t].
        - destruct s as [|x s]; [reflexivity|]. simpl in Hs. cbn [app]. destruct (x =? 49) eqn:E1; [apply N.eqb_eq in E1; subst; exfalso; apply Hs; right; unfold digit; lia|].
          destruct (x =? 48) eqn:E2; [apply N.eqb_eq in E2; subst; exfalso; apply Hs; right; unfold digit; lia|reflexivity].
        - destruct (Hb eq_refl d t eq_refl) as [A B]. cbn [app]. apply N.eqb_neq in A, B. rewrite A, B. reflexivity. }
    rewrite SB, (letter_not_36 c Hc), andb_false_r. rewrite (proj2 (reflect_false _ _ (digit_spec c)) (letter_not_digit c Hc)), (proj2 (letter_spec c) Hc).
    rewrite take_while_eq; [cbv beta iota delta [fst snd]; rewrite IH; reflexivity| |].
    + apply (forall_b is_ident_char _ t ident_spec). exact Ht. + apply (stops_b is_ident_char _ s ident_spec). exact Hs.
  - destruct n as [|c t]; [congruence|]. inversion Ho; subst. simpl app. rewrite split_cons', apply_cases. destruct (op_of_not c H1) as (A & B & C & D').
    rewrite not_starts by exact C. rewrite D', (proj2 (reflect_false _ _ (digit_spec c)) A), (proj2 (reflect_false _ _ (letter_spec c)) (Hl c t eq_refl)), (proj2 (is_op_spec c) H1).
    rewrite take_while_eq; [reflexivity| |].
    + apply (forall_b is_op _ t is_op_spec). exact H2. + apply (stops_b is_op _ s is_op_spec). exact Hs.
  - rewrite split_cons', apply_cases. rewrite not_starts by (apply N.eqb_neq; intros ->; apply H2; right; left; lia).
    replace (c =? 36) with false by (symmetry; apply N.eqb_neq; intros ->; apply H3; apply op_spec; reflexivity). rewrite andb_false_r.
    rewrite (proj2 (reflect_false _ _ (digit_spec c)) H1), (proj2 (reflect_false _ _ (letter_spec c)) H2). unfold is_op. rewrite (proj2 (reflect_false _ _ (op_spec c)) H3), Hw. cbv beta iota delta [andb fst snd]. rewrite IH. reflexivity.
Qed.

Lemma reads_exists : forall n s, (List.length s <= n)%nat -> exists ws, reads_as bin dollar s ws.
Proof.
  induction n as [|n IH]; intros s Hn; [destruct s; [eexists; constructor|simpl in Hn; lia]|]. destruct s as [|c s]; [eexists; constructor|]. simpl in Hn.
  assert (TW : forall p, exists t r, s = t ++ r /\ Forall (fun c => p c = true) t /\ stopsb p r /\ exists ws, reads_as bin dollar r ws).
  { intros p. pose proof (take_while_app p s) as T. pose proof (take_while_all p s) as A. pose proof (take_while_stop p s) as B. destruct (take_while p s) as [t r]. simpl in *. exists t, r.
    split; [congruence|]. split; [exact A|]. split; [exact B|]. apply IH. rewrite <- T, app_length in Hn. lia. }
  destruct (starts_bin c s) eqn:E0.
  { unfold starts_bin in E0. apply andb_true_iff in E0. destruct E0 as [Eb E0]. apply andb_true_iff in E0. destruct E0 as [Ec E0]. apply N.eqb_eq in Ec. subst c.
    destruct s as [|d s]; [discriminate|]. destruct (TW is_digit) as (t & r & E & A & B & ws & Hws).
    assert (Hd : d = 48 \/ d = 49) by (apply orb_true_iff in E0; rewrite !N.eqb_eq in E0; tauto).
    destruct t as [|d' t]; [cbn [app] in E; subst r; cbn in B; destruct Hd; subst d; discriminate|]. cbn [app] in E. injection E as <- ->.
    exists ((98 :: d :: t) :: ws). apply (reads_binary bin dollar (98 :: d :: t) r ws Eb); [|apply (b_stops is_digit); [apply digit_spec|exact B]|exact Hws].
    exists d, t. split; [reflexivity|]. split; [exact Hd|]. inversion A; subst. apply (forall_b is_digit _ t digit_spec). assumption. }
  destruct (dollar && (c =? 36)) eqn:E9.
  { apply andb_true_iff in E9. destruct E9 as [Ed Ec]. apply N.eqb_eq in Ec. subst c. destruct (TW is_ident_char) as (t & r & -> & A & B & ws & Hws).
    exists ((36 :: t) :: ws). apply (reads_dollar bin dollar (36 :: t) r ws Ed); [|apply (b_stops is_ident_char); [apply ident_spec|exact B]|exact Hws].
    exists t. split; [reflexivity|]. apply (forall_b is_ident_char _ t ident_spec). exact A. }
  destruct (is_digit c) eqn:E1.
  { apply digit_spec in E1. destruct (tail_false_cases s) as (t & r & _ & [(Ht & -> & Hr)|(a & b & -> & Ha & Hb & [[-> Hr]| ->])]).
    - destruct (IH r) as [ws Hws]; [rewrite app_length in Hn; lia|]. exists ((c :: t) :: ws). apply (reads_number bin dollar (c :: t)); try assumption. left.
      split; [discriminate|constructor; assumption].
    - destruct (IH r) as [ws Hws]; [rewrite !app_length in Hn; lia|]. exists ((c :: a ++ point :: b) :: ws). apply (reads_number bin dollar (c :: a ++ point :: b)); try assumption.
      right. exists (c :: a), b. split; [reflexivity|]. split; [split; [discriminate|constructor; assumption]|exact Hb].
    - destruct (IH r) as [ws Hws]; [rewrite !app_length in Hn; simpl in Hn; lia|]. exists ((c :: a ++ point :: b) :: ws). apply (reads_second_point bin dollar (c :: a ++ point :: b)); try assumption.
      + right. exists (c :: a), b. split; [reflexivity|]. split; [split; [discriminate|constructor; assumption]|exact Hb].
      + right. apply in_or_app. right. left. reflexivity. }
  destruct (is_ident_start c) eqn:E2.
  { apply letter_spec in E2. destruct (TW is_ident_char) as (t & r & -> & A & B & ws & Hws).
    exists ((c :: t) :: ws). apply (reads_ident bin dollar (c :: t) r ws); [| |apply (b_stops is_ident_char); [apply ident_spec|exact B]|exact Hws].
    - exists c, t. split; [reflexivity|]. split; [exact E2|]. apply (forall_b _ _ t ident_spec). exact A.
    - intros Eb d t' X. injection X as -> ->. unfold starts_bin in E0. rewrite Eb in E0. cbn in E0. apply orb_false_iff in E0. rewrite !N.eqb_neq in E0. tauto. }
  destruct (is_op c) eqn:E3.
  { apply is_op_spec in E3. destruct (TW is_op) as (t & r & -> & A & B & ws & Hws).
    exists ((c :: t) :: ws). apply (reads_operator bin dollar (c :: t) r ws); [discriminate| | |apply (b_stops is_op); [apply is_op_spec|exact B]|exact Hws].
    - constructor; [exact E3|apply (forall_b _ _ t is_op_spec); exact A].
    - intros c' t' H. injection H as <- <-. apply (reflect_false _ _ (letter_spec c)). exact E2. }
  destruct (IH s) as [ws Hws]; [lia|]. destruct (is_whitespace c) eqn:Ew; [exists ws; constructor; assumption|]. exists ([c] :: ws).
  apply reads_other; [exact Ew| | | |exact Hws].
  - apply (reflect_false _ _ (digit_spec c)); exact E1.
  - apply (reflect_false _ _ (letter_spec c)); exact E2.
  - intros X. assert (Y : ~ operator_of dollar c) by (apply (reflect_false _ _ (is_op_spec c)); exact E3). apply Y. split; [exact X|]. intros Hd ->. rewrite Hd in E9. discriminate.
Qed.
Lemma split_reads : forall s, reads_as bin dollar s (split_ s).
Proof. intros s. destruct (reads_exists (List.length s) s (le_n _)) as [ws H]. rewrite (reads_split s ws H). exact H. Qed.
End Reads.

Lemma the_four : the_rules false false = default_splitter /\ the_rules true false = binary_number_splitter /\
  the_rules false true = repl_splitter false /\ the_rules true true = repl_splitter true.
Proof. repeat split. Qed.
