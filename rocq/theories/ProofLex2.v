(** * What the splitters keep *)
From Coq Require Import List NArith Bool Arith Lia String.
From Verif Require Import ModelBase ModelText ModelSplit SpecLex ProofText ProofSplit ProofLex.
Import ListNotations.
Local Open Scope N_scope.

Definition nonwhite (t : str) : Prop := Forall (fun c => is_whitespace c = false) t.

Lemma tail_exact2 : forall s, (fst (numeric_tail true s) ++ snd (numeric_tail true s) = s \/ exists ds b, Forall digit ds /\ s = ds ++ point :: b).
Proof.
  induction s as [|c s IH]; simpl; [left; reflexivity|]. destruct (is_digit c) eqn:E.
  - destruct (numeric_tail true s) as [t r]. simpl in *. destruct IH as [IH|(ds & b & H & ->)]; [left; congruence|]. right. exists (c :: ds), b.
    split; [constructor; [apply digit_spec; exact E|exact H]|reflexivity].
  - destruct (c =? 46) eqn:E2; [|left; reflexivity]. apply N.eqb_eq in E2. subst c. right. exists [], s. split; [constructor|reflexivity].
Qed.
Lemma tail_exact1 : forall s, (fst (numeric_tail false s) ++ snd (numeric_tail false s) = s \/
  exists ds0 ds b, Forall digit ds0 /\ Forall digit ds /\ s = ds0 ++ point :: ds ++ point :: b).
Proof.
  induction s as [|c s IH]; simpl; [left; reflexivity|]. destruct (is_digit c) eqn:E.
  - destruct (numeric_tail false s) as [t r]. simpl in *. destruct IH as [IH|(ds0 & ds & b & H0 & H & ->)]; [left; congruence|]. right. exists (c :: ds0), ds, b.
    split; [constructor; [apply digit_spec; exact E|exact H0]|]. split; [exact H|reflexivity].
  - destruct (c =? 46) eqn:E2; [|left; reflexivity]. apply N.eqb_eq in E2. subst c. pose proof (tail_exact2 s) as T. destruct (numeric_tail true s) as [t r]. simpl in *.
    destruct T as [T|(ds & b & H & ->)]; [left; congruence|]. right. exists [], ds, b. split; [constructor|]. split; [exact H|reflexivity].
Qed.
Lemma numeric_exact : forall c s, digit c -> fst (numeric_tail false s) ++ snd (numeric_tail false s) = s \/ second_point (c :: s).
Proof.
  intros c s Hc. destruct (tail_exact1 s) as [H|(ds0 & ds & b & H0 & H & ->)]; [left; exact H|right].
  destruct (exists_last (l := c :: ds0) ltac:(discriminate)) as (a & d & Hl). exists a, d, ds, b. split.
  - change (c :: ds0 ++ point :: ds ++ point :: b) with ((c :: ds0) ++ point :: ds ++ point :: b). rewrite Hl, <- app_assoc. reflexivity.
  - split; [|exact H]. assert (F : Forall digit (c :: ds0)) by (constructor; assumption). rewrite Hl in F. apply Forall_app in F. destruct F as [_ F]. inversion F. assumption.
Qed.
Lemma second_more : forall n s, second_point s -> second_point (n ++ s).
Proof. intros n s (a & d & ds & b & -> & H). exists (n ++ a), d, ds, b. rewrite <- app_assoc. tauto. Qed.
Lemma second_suffix : forall s s', suffix s' s -> second_point s' -> second_point s.
Proof. intros s s' [p ->] H. apply second_more. exact H. Qed.

(** The shipped rules keep everything, except for the second decimal point and what [SkipWhitespace] skips. *)
Definition exact_rule (r : rule) : Prop := forall c s, match r c s with
  | (Data t, s') => t ++ s' = c :: s \/ second_point (c :: s)
  | (Continue, s') => s' = s
  | (Skip, s') => s' = s /\ is_whitespace c = true
  end.
Lemma shipped_exact : forall r, shipped r -> exact_rule r.
Proof.
  intros r H c s.
  destruct H; unfold split_identifier, split_numeric, split_operator, split_with_operators, skip_whitespace, split_binary, split_repl; cbv zeta;
    match goal with |- context [if ?b then _ else _] => destruct b eqn:E; [|reflexivity] end; try (split; reflexivity).
  all: try (match goal with |- context [take_while ?p ?s] => pose proof (take_while_app p s) as X; destruct (take_while p s); left; simpl in *; congruence end).
  apply digit_spec in E. destruct (numeric_exact c s E) as [X|X]; destruct (numeric_tail false s); simpl in *; [left; congruence|right; exact X].
Qed.
Lemma apply_exact : forall rules, Forall exact_rule rules -> forall c s, match apply_rules rules c s with
  | (Some t, s') => t ++ s' = c :: s \/ second_point (c :: s) | (None, s') => s' = s /\ is_whitespace c = true end.
Proof.
  induction rules as [|r rules IH]; intros H c s; simpl; [left; reflexivity|]. inversion H as [|? ? Hr Hs]; subst. specialize (Hr c s).
  destruct (r c s) as [[t| |] s']; try exact Hr. subst s'. apply IH. exact Hs.
Qed.
(** With no rule that skips. *)
Lemma split_all_kept : forall rules, Forall shipped rules -> (forall c s, fst (apply_rules rules c s) <> None) -> forall s, ~ second_point s ->
  List.concat (split_into_tokens rules s) = s.
Proof.
  intros rules H Hk. assert (T : Forall tame rules) by (eapply Forall_impl; [|exact H]; apply shipped_tame).
  assert (Ho : Forall exact_rule rules) by (eapply Forall_impl; [|exact H]; apply shipped_exact).
  assert (A : forall n s, (List.length s <= n)%nat -> ~ second_point s -> List.concat (split_into_tokens rules s) = s).
  { induction n as [|n IH]; intros s Hn Hs; [destruct s; [reflexivity|simpl in Hn; lia]|]. destruct s as [|c s]; [reflexivity|]. simpl in Hn.
    rewrite (split_cons rules T). pose proof (apply_suffix rules T c s) as Su. pose proof (suffix_length _ _ Su) as L. pose proof (apply_exact rules Ho c s) as Q. specialize (Hk c s).
    destruct (apply_rules rules c s) as [[t|] s']; cbn [fst snd] in *; [|congruence]. destruct Q as [Q|Q]; [|contradiction]. simpl. rewrite IH; [exact Q|lia|].
    intros X. apply Hs. apply (second_more [c]). eapply second_suffix; eassumption. }
  intros s. apply (A (List.length s)). apply le_n.
Qed.
(** The splitters that drop white space yield words without white space, and drop nothing else. *)
Definition clean (r : rule) : Prop := forall c s t s', r c s = (Data t, s') -> nonwhite t.
Lemma take_clean : forall p (c : char) s, (forall w, is_whitespace w = true -> p w = false) -> is_whitespace c = false -> nonwhite (c :: fst (take_while p s)).
Proof.
  intros p c s Hp Hc. constructor; [exact Hc|]. eapply Forall_impl; [|apply (take_while_all p s)]. intros x Hx. simpl in Hx. destruct (is_whitespace x) eqn:E; [|reflexivity].
  rewrite (Hp x E) in Hx. discriminate.
Qed.
Lemma tail_clean : forall s h, nonwhite (fst (numeric_tail h s)).
Proof.
  induction s as [|c s IH]; intros h; simpl; [constructor|]. destruct (is_digit c) eqn:E.
  - specialize (IH h). destruct (numeric_tail h s). constructor; [apply digit_visible, digit_spec; exact E|exact IH].
  - destruct (c =? 46) eqn:E2; [|constructor]. destruct h; [constructor|]. apply N.eqb_eq in E2. subst c. specialize (IH true). destruct (numeric_tail true s). constructor; [reflexivity|exact IH].
Qed.
Lemma clean_identifier : clean split_identifier.
Proof.
  intros c s t s' H. unfold split_identifier in H. destruct (is_ident_start c) eqn:E; [|discriminate]. pose proof (take_clean is_ident_char c s ident_white) as X.
  destruct (take_while is_ident_char s). injection H as <- <-. apply X. apply letter_visible, letter_spec. exact E.
Qed.
Lemma clean_numeric : clean split_numeric.
Proof.
  intros c s t s' H. unfold split_numeric in H. destruct (is_digit c) eqn:E; [|discriminate]. pose proof (tail_clean s false) as X. destruct (numeric_tail false s). injection H as <- <-.
  constructor; [apply digit_visible, digit_spec; exact E|exact X].
Qed.
Lemma clean_operator : clean split_operator.
Proof.
  intros c s t s' H. unfold split_operator in H. destruct (is_operator_char c) eqn:E; [|discriminate]. pose proof (take_clean is_operator_char c s op_white) as X.
  destruct (take_while is_operator_char s). injection H as <- <-. apply X. apply op_visible, op_spec. exact E.
Qed.
Lemma clean_with : forall ops, no_white ops = true -> clean (split_with_operators ops).
Proof.
  intros ops Ho c s t s' H. unfold split_with_operators in H. cbv zeta in H. destruct (existsb (N.eqb c) ops) eqn:E; [|discriminate].
  pose proof (take_clean (fun c => existsb (N.eqb c) ops) c s (ops_white ops Ho)) as X. destruct (take_while _ s). injection H as <- <-. apply X.
  destruct (is_whitespace c) eqn:Ew; [|reflexivity]. rewrite (ops_white ops Ho c Ew) in E. discriminate.
Qed.
Lemma clean_whitespace : clean skip_whitespace.
Proof. intros c s t s' H. unfold skip_whitespace in H. destruct (is_whitespace c); discriminate. Qed.
Lemma clean_binary : clean split_binary.
Proof.
  intros c s t s' H. unfold split_binary in H. cbv zeta in H. match type of H with (if ?b then _ else _) = _ => destruct b eqn:E; [|discriminate] end.
  pose proof (take_clean is_digit c s digit_white) as X. destruct (take_while is_digit s). injection H as <- <-. apply X. apply andb_true_iff in E. destruct E as [E _]. apply N.eqb_eq in E. subst c. reflexivity.
Qed.
Lemma clean_repl : clean split_repl.
Proof.
  intros c s t s' H. unfold split_repl in H. destruct (c =? 36) eqn:E; [|discriminate]. pose proof (take_clean is_ident_char c s ident_white) as X. destruct (take_while is_ident_char s).
  injection H as <- <-. apply X. apply N.eqb_eq in E. subst c. reflexivity.
Qed.
Lemma apply_clean : forall rules, Forall clean rules -> skips rules -> forall c s t s', apply_rules rules c s = (Some t, s') -> nonwhite t.
Proof.
  intros rules H Hk c s t s' A. assert (Hc : is_whitespace c = false). { destruct (is_whitespace c) eqn:E; [|reflexivity]. rewrite (Hk c s E) in A. discriminate. }
  clear Hk. revert s A. induction H as [|r rules Hr _ IH]; intros s A; simpl in A; [injection A as <- <-; constructor; [exact Hc|constructor]|].
  destruct (r c s) as [[t0| |] s0] eqn:E; [injection A as <- <-; eapply Hr; exact E|eapply IH; exact A|discriminate].
Qed.
Lemma splitters_clean : forall rules, In rules splitters -> Forall shipped rules /\ Forall clean rules /\ skips rules.
Proof.
  intros rules H. destruct (splitters_ok rules H) as (_ & _ & K). assert (Nw : no_white (except operator_chars 36) = true) by reflexivity. unfold splitters in H. cbn [In] in H.
  split; [|split; [|exact K]]; destruct H as [<-|[<-|[<-|[<-|[]]]]]; cbn; repeat (apply Forall_cons; [|]); try apply Forall_nil; try (constructor; fail);
    first [apply clean_binary|apply clean_numeric|apply clean_identifier|apply clean_operator|apply clean_whitespace|apply clean_repl|apply clean_with; exact Nw].
Qed.
Lemma sub_without : forall a b, sub a b -> sub (without_spaces a) (without_spaces b).
Proof.
  intros a b Qs. induction Qs as [|x a b _ IH|x a b _ IH]; unfold without_spaces in *; simpl; [constructor| |]; destruct (negb (is_whitespace x)); try constructor; exact IH.
Qed.
Lemma split_clean : forall rules, In rules splitters -> forall s, Forall (fun t => t <> [] /\ nonwhite t) (split_into_tokens rules s) /\
  sub (List.concat (split_into_tokens rules s)) (without_spaces s) /\ (~ second_point s -> List.concat (split_into_tokens rules s) = without_spaces s).
Proof.
  intros rules Hr. destruct (splitters_clean rules Hr) as (H & Hc & Hk). assert (T : Forall tame rules) by (eapply Forall_impl; [|exact H]; apply shipped_tame).
  assert (Ho : Forall exact_rule rules) by (eapply Forall_impl; [|exact H]; apply shipped_exact). assert (Hh : Forall honest rules) by (eapply Forall_impl; [|exact H]; apply shipped_honest).
  assert (A : forall n s, (List.length s <= n)%nat -> Forall (fun t => t <> [] /\ nonwhite t) (split_into_tokens rules s) /\
    sub (List.concat (split_into_tokens rules s)) (without_spaces s) /\ (~ second_point s -> List.concat (split_into_tokens rules s) = without_spaces s)).
  { induction n as [|n IH]; intros s Hn; [destruct s; [split; [constructor|split; [constructor|reflexivity]]|simpl in Hn; lia]|]. destruct s as [|c s]; [split; [constructor|split; [constructor|reflexivity]]|]. simpl in Hn.
    rewrite (split_cons rules T). pose proof (apply_suffix rules T c s) as Su. pose proof (suffix_length _ _ Su) as L. pose proof (apply_exact rules Ho c s) as Q.
    pose proof (apply_honest rules Hh c s) as Q2. pose proof (apply_clean rules Hc Hk c s) as Q3.
    destruct (apply_rules rules c s) as [[t|] s'] eqn:Ea; cbn [fst snd] in *.
    - specialize (Q3 t s' eq_refl). destruct Q2 as [Qn Qs]. destruct (IH s' ltac:(lia)) as (I1 & I2 & I3). split; [constructor; auto|]. simpl.
      assert (V : without_spaces (t ++ s') = t ++ without_spaces s') by (rewrite without_app, (visible_filter t Q3); reflexivity). split.
      + eapply sub_trans; [apply sub_app; [apply sub_refl|exact I2]|]. rewrite <- V. change (sub (without_spaces (t ++ s')) (without_spaces (c :: s))). apply sub_without. exact Qs.
      + intros Hs. destruct Q as [Q|Q]; [|contradiction]. rewrite I3; [rewrite <- V, Q; reflexivity|]. intros X. apply Hs. apply (second_more [c]). eapply second_suffix; eassumption.
    - destruct Q as [-> Q]. destruct (IH s ltac:(lia)) as (I1 & I2 & I3). unfold without_spaces in *. simpl. rewrite Q. simpl. split; [exact I1|]. split; [exact I2|]. intros Hs. apply I3. intros X. apply Hs. apply (second_more [c]). exact X. }
  intros s. apply (A (List.length s)). apply le_n.
Qed.
