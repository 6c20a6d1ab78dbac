(** * C97: splitters with rules of one's own *)
From Coq Require Import List NArith Bool Arith Lia String.
From Verif Require Import ModelBase ModelText ModelSplit ModelSplitBuilder SpecLex SpecSplitter ProofSplit ProofLex.
Import ListNotations.

(** ** Any rules *)
Lemma well_tame : forall r, well_behaved r -> tame r. Proof. intros r H c s. destruct (H c s) as [[u E] _]. exists u. exact E. Qed.
Lemma apply_cut : forall rules, Forall well_behaved rules -> forall c s,
  (exists before r after w s', rules = before ++ r :: after /\ Forall (fun p => leaves p (c :: s)) before /\ r c s = (Data w, s') /\ apply_rules rules c s = (Some w, s')) \/
  (exists before r after s', rules = before ++ r :: after /\ Forall (fun p => leaves p (c :: s)) before /\ r c s = (Skip, s') /\ apply_rules rules c s = (None, s')) \/
  (Forall (fun p => leaves p (c :: s)) rules /\ apply_rules rules c s = (Some [c], s)).
Proof.
  intros rules H c s. induction H as [|r rules Hr _ IH]; [right; right; split; [constructor|reflexivity]|]. cbn [apply_rules]. destruct (Hr c s) as [_ X]. destruct (r c s) as [[w| |] s'] eqn:K.
  - left. exists [], r, rules, w, s'. repeat split; auto.
  - cbn [fst snd] in X. rewrite (X eq_refl). assert (L : leaves r (c :: s)) by (cbn; rewrite K; reflexivity).
    destruct IH as [(b & q & a & w & t & E & F & G & ->)|[(b & q & a & t & E & F & G & ->)|[F ->]]].
    + left. exists (r :: b), q, a, w, t. split; [rewrite E; reflexivity|]. auto.
    + right. left. exists (r :: b), q, a, t. split; [rewrite E; reflexivity|]. auto.
    + right. right. auto.
  - right. left. exists [], r, rules, s'. repeat split; auto.
Qed.
Lemma suffix_less : forall (s' s : str), suffix s' s -> forall n, (List.length s <= n)%nat -> (List.length s' <= n)%nat.
Proof. intros s' s H n Hn. apply suffix_length in H. lia. Qed.
Lemma leaves_other : forall r c s w s', leaves r (c :: s) -> r c s = (Data w, s') \/ r c s = (Skip, s') -> False.
Proof. intros r c s w s' L [K|K]; cbn in L; rewrite K in L; discriminate. Qed.
Lemma first_decides : forall rules b r a b' r' a' c s, rules = b ++ r :: a -> rules = b' ++ r' :: a' -> Forall (fun p => leaves p (c :: s)) b -> Forall (fun p => leaves p (c :: s)) b' ->
  ~ leaves r (c :: s) -> ~ leaves r' (c :: s) -> r = r'.
Proof.
  intros rules b. revert rules. induction b as [|x b IH]; intros rules r a b' r' a' c s E E' F F' N N'.
  - destruct b' as [|y b']; [rewrite E in E'; injection E' as -> _; reflexivity|]. rewrite E in E'. injection E' as -> _. inversion F'; subst. contradiction.
  - destruct b' as [|y b']; [rewrite E in E'; injection E' as -> _; inversion F; subst; contradiction|]. rewrite E in E'. injection E' as <- E'. inversion F; inversion F'; subst.
    exact (IH (b ++ r :: a) r a b' r' a' c s eq_refl E' H2 H6 N N').
Qed.
Lemma split_cut : forall rules, Forall well_behaved rules -> forall s, cut rules s (split_into_tokens rules s).
Proof.
  intros rules H. assert (T : Forall tame rules) by (eapply Forall_impl; [exact well_tame|exact H]). assert (G : forall n s, (List.length s <= n)%nat -> cut rules s (split_into_tokens rules s)).
  { induction n as [|n IH]; intros s Hn; (destruct s as [|c s]; [constructor|]); cbn in Hn; [lia|]. rewrite (split_cons rules T c s).
    assert (W : forall b q a, rules = b ++ q :: a -> well_behaved q) by (intros b q a ->; rewrite Forall_forall in H; apply H; apply in_or_app; right; left; reflexivity).
    destruct (apply_cut rules H c s) as [(b & q & a & w & t & E & F & Q & ->)|[(b & q & a & t & E & F & Q & ->)|[F ->]]]; cbn [fst snd].
    - apply (cut_word rules b q a c s w t); auto. apply IH. pose proof (well_tame q (W b q a E) c s) as S. rewrite Q in S. apply suffix_length in S. cbn in S. lia.
    - apply (cut_dropped rules b q a c s t); auto. apply IH. pose proof (well_tame q (W b q a E) c s) as S. rewrite Q in S. apply suffix_length in S. cbn in S. lia.
    - apply cut_char; [exact F|]. apply IH. lia. }
  intros s. exact (G (List.length s) s (le_n _)).
Qed.
Lemma cut_unique : forall rules s ws, cut rules s ws -> forall ws', cut rules s ws' -> ws = ws'.
Proof.
  intros rules s ws H. induction H as [|b r a c s w s' ws E F K _ IH|b r a c s s' ws E F K _ IH|c s ws F _ IH]; intros ws' H'.
  - inversion H'. reflexivity.
  - assert (N : ~ leaves r (c :: s)) by (cbn; rewrite K; discriminate). inversion H' as [|b2 r2 a2 c2 s2 w2 s2' ws2 E2 F2 K2 R2|b2 r2 a2 c2 s2 s2' ws2 E2 F2 K2 R2|c2 s2 ws2 F2 R2]; subst c2 s2.
    + assert (N2 : ~ leaves r2 (c :: s)) by (cbn; rewrite K2; discriminate). pose proof (first_decides rules b r a b2 r2 a2 c s E E2 F F2 N N2) as X. subst r2. rewrite K in K2. injection K2 as <- <-. f_equal. exact (IH _ R2).
    + assert (N2 : ~ leaves r2 (c :: s)) by (cbn; rewrite K2; discriminate). pose proof (first_decides rules b r a b2 r2 a2 c s E E2 F F2 N N2) as X. subst r2. rewrite K in K2. discriminate.
    + exfalso. apply N. rewrite E in F2. rewrite Forall_forall in F2. apply F2. apply in_or_app. right. left. reflexivity.
  - assert (N : ~ leaves r (c :: s)) by (cbn; rewrite K; discriminate). inversion H' as [|b2 r2 a2 c2 s2 w2 s2' ws2 E2 F2 K2 R2|b2 r2 a2 c2 s2 s2' ws2 E2 F2 K2 R2|c2 s2 ws2 F2 R2]; subst c2 s2.
    + assert (N2 : ~ leaves r2 (c :: s)) by (cbn; rewrite K2; discriminate). pose proof (first_decides rules b r a b2 r2 a2 c s E E2 F F2 N N2) as X. subst r2. rewrite K in K2. discriminate.
    + assert (N2 : ~ leaves r2 (c :: s)) by (cbn; rewrite K2; discriminate). pose proof (first_decides rules b r a b2 r2 a2 c s E E2 F F2 N N2) as X. subst r2. rewrite K in K2. injection K2 as <-. exact (IH _ R2).
    + exfalso. apply N. rewrite E in F2. rewrite Forall_forall in F2. apply F2. apply in_or_app. right. left. reflexivity.
  - inversion H' as [|b2 r2 a2 c2 s2 w2 s2' ws2 E2 F2 K2 R2|b2 r2 a2 c2 s2 s2' ws2 E2 F2 K2 R2|c2 s2 ws2 F2 R2]; subst c2 s2.
    + assert (N2 : ~ leaves r2 (c :: s)) by (cbn; rewrite K2; discriminate). exfalso. apply N2. rewrite E2 in F. rewrite Forall_forall in F. apply F. apply in_or_app. right. left. reflexivity.
    + assert (N2 : ~ leaves r2 (c :: s)) by (cbn; rewrite K2; discriminate). exfalso. apply N2. rewrite E2 in F. rewrite Forall_forall in F. apply F. apply in_or_app. right. left. reflexivity.
    + f_equal. exact (IH _ R2).
Qed.

(** A splitter of well behaved rules cuts every text, in one way: at each character the first rule that does not leave it decides. *)
Theorem C97_priority : forall rules, Forall well_behaved rules -> forall s ws, split_into_tokens rules s = ws <-> cut rules s ws.
Proof. intros rules H s ws. split; [intros <-; apply split_cut; exact H|]. intros C. exact (cut_unique rules s _ (split_cut rules H s) ws C). Qed.
Print Assumptions C97_priority.

(** ** The splitters with one rule of one's own *)
Local Open Scope N_scope.
Section Own.
Variable numbers : bool.
Variable r : rule.
Hypothesis Hr : well_behaved r.
Definition own : list rule := if numbers then with_identifier_rule r else with_numeric_rule r.
Definition own_split (s : str) : list str := split_into_tokens own s.
Lemma own_tame : Forall tame own.
Proof.
  pose proof (well_tame r Hr) as T. unfold own, with_identifier_rule, with_numeric_rule, build_splitter. destruct numbers; cbn [app]; repeat apply Forall_cons; try apply Forall_nil;
  first [exact T|apply tame_identifier|apply tame_numeric|apply tame_operator|apply tame_whitespace].
Qed.
Lemma own_cons : forall c s, own_split (c :: s) = match fst (apply_rules own c s) with
  | Some t => t :: own_split (snd (apply_rules own c s)) | None => own_split (snd (apply_rules own c s)) end.
Proof. intros. apply split_cons. apply own_tame. Qed.
Lemma own_cases : forall c s, apply_rules own c s =
  if numbers && is_digit c then (Some (c :: fst (numeric_tail false s)), snd (numeric_tail false s))
  else match r c s with
  | (Data w, s') => (Some w, s')
  | (Skip, s') => (None, s')
  | (Continue, _) =>
    if is_ident_start c then (Some (c :: fst (take_while is_ident_char s)), snd (take_while is_ident_char s))
    else if is_operator_char c then (Some (c :: fst (take_while is_operator_char s)), snd (take_while is_operator_char s))
    else if is_whitespace c then (None, s) else (Some [c], s)
  end.
Proof.
  intros c s. destruct (Hr c s) as [_ X].
  assert (M : apply_rules [r; split_identifier; split_operator; skip_whitespace] c s = match r c s with
  | (Data w, s') => (Some w, s')
  | (Skip, s') => (None, s')
  | (Continue, _) =>
    if is_ident_start c then (Some (c :: fst (take_while is_ident_char s)), snd (take_while is_ident_char s))
    else if is_operator_char c then (Some (c :: fst (take_while is_operator_char s)), snd (take_while is_operator_char s))
    else if is_whitespace c then (None, s) else (Some [c], s)
  end).
  { cbn [apply_rules]. destruct (r c s) as [[w| |] s'] eqn:K; [reflexivity| |reflexivity]. cbn [fst snd] in X. rewrite (X eq_refl).
    unfold split_identifier, split_operator, skip_whitespace. destruct (is_ident_start c); [destruct (take_while is_ident_char s); reflexivity|].
    destruct (is_operator_char c); [destruct (take_while is_operator_char s); reflexivity|]. destruct (is_whitespace c); reflexivity. }
  unfold own, with_identifier_rule, with_numeric_rule, build_splitter. destruct numbers; cbn [app andb]; [|exact M].
  change (apply_rules [split_numeric; r; split_identifier; split_operator; skip_whitespace] c s) with
    (match split_numeric c s with (Data w, s') => (Some w, s') | (Continue, s') => apply_rules [r; split_identifier; split_operator; skip_whitespace] c s' | (Skip, s') => (None, s') end).
  unfold split_numeric. destruct (is_digit c); [destruct (numeric_tail false s); reflexivity|exact M].
Qed.
Lemma own_left : forall c s, leaves r (c :: s) -> r c s = (Continue, s).
Proof. intros c s L. cbn in L. destruct (Hr c s) as [_ X]. specialize (X L). destruct (r c s) as [o t]. cbn in *. subst. reflexivity. Qed.
Lemma not_number : forall c, (numbers = true -> ~ digit c) -> numbers && is_digit c = false.
Proof. intros c H. destruct numbers; [|reflexivity]. apply (reflect_false _ _ (digit_spec c)). apply H. reflexivity. Qed.
Lemma lexes_own : forall s ws, lexes_by numbers r s ws -> own_split s = ws.
Proof.
  induction 1 as [|c s w s' ws Hd K _ IH|c s s' ws Hd K _ IH|c s ws Hc L _ IH|n s ws Hb Hn Hs _ IH|n s ws Hb Hn Hp _ IH|n s ws Hn Hs L _ IH|n s ws Hn Hs L _ IH|c s ws Hw H1 H2 H3 L _ IH].
  - reflexivity.
  - rewrite own_cons, own_cases, (not_number c Hd), K. cbn [fst snd]. rewrite IH. reflexivity.
  - rewrite own_cons, own_cases, (not_number c Hd), K. exact IH.
  - destruct (white_none c Hc) as (A & B & C). rewrite own_cons, own_cases, (not_number c (fun _ => A)), (own_left c s L).
    apply (reflect_false _ _ (letter_spec c)) in B. apply (reflect_false _ _ (op_spec c)) in C. rewrite B, C, Hc. exact IH.
  - destruct Hn as [[Hne Hd]|(a & b & -> & [Hne Ha] & Hb')].
    + destruct n as [|c t]; [congruence|]. inversion Hd; subst. simpl app. rewrite own_cons, own_cases, (proj2 (digit_spec c) H1), (tail_digits t false s H2 Hs), Hb. reflexivity.
    + destruct a as [|c t]; [congruence|]. inversion Ha; subst. simpl app. rewrite own_cons, own_cases, (proj2 (digit_spec c) H1), Hb, <- app_assoc. simpl app.
      rewrite (tail_point t b s (b ++ s) H2 (tail_digits b true s Hb' Hs)). reflexivity.
  - destruct Hn as [[Hne Hd]|(a & b & -> & [Hne Ha] & Hb')].
    + exfalso. rewrite Forall_forall in Hd. apply Hd in Hp. apply point_not_digit. exact Hp.
    + destruct a as [|c t]; [congruence|]. inversion Ha; subst. simpl app. rewrite own_cons, own_cases, (proj2 (digit_spec c) H1), Hb, <- app_assoc. simpl app.
      rewrite (tail_point t b s (b ++ point :: s) H2 (tail_second b s Hb')). reflexivity.
  - destruct Hn as (c & t & -> & Hc & Ht). simpl app in *. rewrite own_cons, own_cases, (not_number c (fun _ => letter_not_digit c Hc)), (own_left _ _ L), (proj2 (letter_spec c) Hc).
    rewrite take_while_eq; [cbn [fst snd]; rewrite IH; reflexivity| |].
    + apply (forall_b is_ident_char _ t ident_spec). exact Ht. + apply (stops_b is_ident_char _ s ident_spec). exact Hs.
  - destruct Hn as (Hne & Ho & Hl). destruct n as [|c t]; [congruence|]. inversion Ho; subst. simpl app in *.
    rewrite own_cons, own_cases, (not_number c (fun _ => op_not_digit c H1)), (own_left _ _ L), (proj2 (reflect_false _ _ (letter_spec c)) (Hl c t eq_refl)), (proj2 (op_spec c) H1).
    rewrite take_while_eq; [reflexivity| |].
    + apply (forall_b is_operator_char _ t op_spec). exact H2. + apply (stops_b is_operator_char _ s op_spec). exact Hs.
  - rewrite own_cons, own_cases, not_number, (own_left _ _ L), (proj2 (reflect_false _ _ (letter_spec c)) H2), (proj2 (reflect_false _ _ (op_spec c)) H3), Hw.
    + cbn [fst snd]. rewrite IH. reflexivity.
    + intros E D. specialize (H1 D). congruence.
Qed.
Lemma own_exists : forall n s, (List.length s <= n)%nat -> exists ws, lexes_by numbers r s ws.
Proof.
  induction n as [|n IH]; intros s Hn; (destruct s as [|c s]; [eexists; constructor|]); simpl in Hn; [lia|].
  assert (TW : forall p, exists t q, s = t ++ q /\ Forall (fun c => p c = true) t /\ stopsb p q /\ exists ws, lexes_by numbers r q ws).
  { intros p. pose proof (take_while_app p s) as T. pose proof (take_while_all p s) as A. pose proof (take_while_stop p s) as B. destruct (take_while p s) as [t q]. simpl in *. exists t, q.
    split; [congruence|]. split; [exact A|]. split; [exact B|]. apply IH. rewrite <- T, app_length in Hn. lia. }
  destruct (numbers && is_digit c) eqn:E1.
  { apply andb_true_iff in E1. destruct E1 as [Eb E1]. apply digit_spec in E1. destruct (tail_false_cases s) as (t & q & _ & [(Ht & -> & Hq)|(a & b & -> & Ha & Hb & [[-> Hq]| ->])]).
    - destruct (IH q) as [ws Hws]; [rewrite app_length in Hn; lia|]. exists ((c :: t) :: ws). apply (by_number numbers r (c :: t)); try assumption. left.
      split; [discriminate|constructor; assumption].
    - destruct (IH q) as [ws Hws]; [rewrite !app_length in Hn; lia|]. exists ((c :: a ++ point :: b) :: ws). apply (by_number numbers r (c :: a ++ point :: b)); try assumption.
      right. exists (c :: a), b. split; [reflexivity|]. split; [split; [discriminate|constructor; assumption]|exact Hb].
    - destruct (IH q) as [ws Hws]; [rewrite !app_length in Hn; simpl in Hn; lia|]. exists ((c :: a ++ point :: b) :: ws). apply (by_second_point numbers r (c :: a ++ point :: b)); try assumption.
      + right. exists (c :: a), b. split; [reflexivity|]. split; [split; [discriminate|constructor; assumption]|exact Hb].
      + right. apply in_or_app. right. left. reflexivity. }
  assert (ND : numbers = true -> ~ digit c).
  { intros Eb. rewrite Eb in E1. cbn in E1. apply (reflect_false _ _ (digit_spec c)). exact E1. }
  destruct (Hr c s) as [[u U] X]. destruct (r c s) as [[w| |] s'] eqn:K; cbn [fst snd] in U, X.
  - destruct (IH s') as [ws Hws]; [rewrite U, app_length in Hn; lia|]. exists (w :: ws). apply (by_rule numbers r c s w s'); assumption.
  - assert (L : leaves r (c :: s)) by (cbn; rewrite K; reflexivity). clear U. specialize (X eq_refl). subst s'. destruct (is_ident_start c) eqn:E2.
    { apply letter_spec in E2. destruct (TW is_ident_char) as (t & q & -> & A & B & ws & Hws).
      exists ((c :: t) :: ws). apply (by_ident numbers r (c :: t) q ws); [|apply (b_stops is_ident_char); [apply ident_spec|exact B]|exact L|exact Hws].
      exists c, t. split; [reflexivity|]. split; [exact E2|]. apply (forall_b _ _ t ident_spec). exact A. }
    destruct (is_operator_char c) eqn:E3.
    { apply op_spec in E3. destruct (TW is_operator_char) as (t & q & -> & A & B & ws & Hws).
      exists ((c :: t) :: ws). apply (by_operator numbers r (c :: t) q ws); [|apply (b_stops is_operator_char); [apply op_spec|exact B]|exact L|exact Hws].
      split; [discriminate|]. split.
      - constructor; [exact E3|apply (forall_b _ _ t op_spec); exact A].
      - intros c' t' H. injection H as <- <-. apply (reflect_false _ _ (letter_spec c)). exact E2. }
    destruct (IH s) as [ws Hws]; [lia|]. destruct (is_whitespace c) eqn:Ew; [exists ws; apply by_space; assumption|]. exists ([c] :: ws).
    apply by_other; [exact Ew| | | |exact L|exact Hws].
    + intros D. destruct numbers; [exfalso; apply ND; auto|reflexivity].
    + apply (reflect_false _ _ (letter_spec c)); exact E2.
    + apply (reflect_false _ _ (op_spec c)); exact E3.
  - destruct (IH s') as [ws Hws]; [rewrite U, app_length in Hn; lia|]. exists ws. apply (by_rule_dropped numbers r c s s'); assumption.
Qed.
Lemma own_reads : forall s ws, own_split s = ws <-> lexes_by numbers r s ws.
Proof.
  intros s ws. split; [|apply lexes_own]. intros <-. destruct (own_exists (List.length s) s (le_n _)) as [ws H]. rewrite (lexes_own s ws H). exact H.
Qed.
End Own.

(** A numeric rule of one's own replaces the numbers: its words come first, and digits it leaves are words of their own. *)
Theorem C97_numeric : forall r, well_behaved r -> forall s ws, split_into_tokens (with_numeric_rule r) s = ws <-> lexes_by false r s ws.
Proof. intros r H. exact (own_reads false r H). Qed.
(** An identifier rule of one's own comes after the numbers and before the names, which it does not replace. *)
Theorem C97_identifier : forall r, well_behaved r -> forall s ws, split_into_tokens (with_identifier_rule r) s = ws <-> lexes_by true r s ws.
Proof. intros r H. exact (own_reads true r H). Qed.
(** With the shipped number rule as numeric rule, and with a rule that leaves everything as identifier rule, it is the default splitter. *)
Theorem C97_default : with_numeric_rule split_numeric = default_splitter /\
  forall r, (forall c s, r c s = (Continue, s)) -> forall s, split_into_tokens (with_identifier_rule r) s = split_into_tokens default_splitter s.
Proof.
  split; [reflexivity|]. intros r H. assert (A : forall c s, apply_rules (with_identifier_rule r) c s = apply_rules default_splitter c s).
  { intros c s. unfold with_identifier_rule, default_splitter, new_splitter, build_splitter. cbn [app apply_rules]. unfold split_numeric. destruct (is_digit c); [destruct (numeric_tail false s); reflexivity|]. rewrite H. reflexivity. }
  intros s. unfold split_into_tokens. generalize (List.length s). intros n. revert s. induction n as [|n IH]; intros [|c s]; try reflexivity. cbn [split_loop]. rewrite A. destruct (apply_rules default_splitter c s) as [[w|] t]; rewrite IH; reflexivity.
Qed.
Print Assumptions C97_numeric.
Print Assumptions C97_identifier.
Print Assumptions C97_default.

(** ** The builder of splitters *)
Definition b_call (a : build_call) (b : splitter_builder) : res splitter_builder :=
  match a with CallRule r => Ok (b_rule r b) | CallInsert i r => b_insert_rule i r b | CallWhitespace w => Ok (b_whitespace w b) end.
Fixpoint b_calls (l : list build_call) (b : splitter_builder) : res splitter_builder :=
  match l with [] => Ok b | a :: l => match b_call a b with Ok b' => b_calls l b' | Err k => Err k | Panic => Panic end end.
Lemma calls_app : forall l m b, b_calls (l ++ m) b = match b_calls l b with Ok b' => b_calls m b' | Err k => Err k | Panic => Panic end.
Proof. induction l as [|a l IH]; intros m b; [reflexivity|]. cbn [app b_calls]. destruct (b_call a b); auto. Qed.
Definition white_calls (l : list build_call) : option whitespace_option := fold_left (fun o a => match a with CallWhitespace w => Some w | _ => o end) l None.
Lemma white_snoc : forall l a, white_calls (l ++ [a]) = match a with CallWhitespace w => Some w | _ => white_calls l end.
Proof. intros l a. unfold white_calls. rewrite fold_left_app. reflexivity. Qed.
Lemma drops_iff : forall l, drops_white l <-> white_calls l = Some RemoveWhitespace.
Proof.
  intros l. induction l as [|a l IH] using rev_ind; [split; [intros (b & c & E & _); destruct b; discriminate|discriminate]|]. rewrite white_snoc. split.
  - intros (b & c & E & N). destruct c as [|x c _] using rev_ind.
    + apply app_inj_tail in E. destruct E as [_ ->]. reflexivity.
    + change (b ++ CallWhitespace RemoveWhitespace :: c ++ [x]) with (b ++ (CallWhitespace RemoveWhitespace :: c) ++ [x]) in E. rewrite app_assoc in E. apply app_inj_tail in E. destruct E as [-> ->].
      assert (M : drops_white (b ++ CallWhitespace RemoveWhitespace :: c)) by (exists b, c; split; [reflexivity|intros w H; apply (N w); apply in_or_app; left; exact H]).
      destruct x; try (apply IH; exact M). exfalso. apply (N w). apply in_or_app. right. left. reflexivity.
  - destruct a as [r|i r|w]; intros E.
    + apply IH in E. destruct E as (b & c & -> & N). exists b, (c ++ [CallRule r]). split; [rewrite <- app_assoc; reflexivity|]. intros w H. apply in_app_or in H. destruct H as [H|[H|[]]]; [exact (N w H)|discriminate].
    + apply IH in E. destruct E as (b & c & -> & N). exists b, (c ++ [CallInsert i r]). split; [rewrite <- app_assoc; reflexivity|]. intros w H. apply in_app_or in H. destruct H as [H|[H|[]]]; [exact (N w H)|discriminate].
    + injection E as ->. exists l, []. split; [reflexivity|]. intros w [].
Qed.
Lemma calls_ordered : forall l b, b_calls l b_new = Ok b -> in_order l (b_rules b) /\ b_white b = white_calls l.
Proof.
  intros l. induction l as [|a l IH] using rev_ind; intros b E; [injection E as <-; split; [constructor|reflexivity]|].
  rewrite calls_app in E. destruct (b_calls l b_new) as [b0| |]; try discriminate. destruct (IH b0 eq_refl) as [O W]. rewrite white_snoc. destruct a as [r|i r|w]; cbn in E.
  - injection E as <-. split; [apply order_rule; exact O|exact W].
  - unfold b_insert_rule in E. destruct (i <=? List.length (b_rules b0))%nat eqn:L; [|discriminate]. injection E as <-. split; [|exact W]. apply order_insert; [rewrite firstn_skipn; exact O|].
    apply firstn_length_le. apply Nat.leb_le. exact L.
  - injection E as <-. split; [apply order_white; exact O|reflexivity].
Qed.
Lemma order_calls : forall l rules, in_order l rules -> exists b, b_calls l b_new = Ok b /\ b_rules b = rules.
Proof.
  induction 1 as [|l rules r _ (b & E & <-)|l first others i r _ (b & E & F) L|l rules w _ (b & E & <-)].
  - eexists. split; reflexivity.
  - eexists. rewrite calls_app, E. split; reflexivity.
  - rewrite calls_app, E. cbn. unfold b_insert_rule. rewrite F, app_length. replace (i <=? _)%nat with true by (symmetry; apply Nat.leb_le; lia). subst i.
    eexists. split; [reflexivity|]. cbn [b_rules]. rewrite firstn_app, skipn_app, Nat.sub_diag, firstn_all, skipn_all, app_nil_r. reflexivity.
  - eexists. rewrite calls_app, E. split; reflexivity.
Qed.
Lemma order_unique : forall l r1 r2, in_order l r1 -> in_order l r2 -> r1 = r2.
Proof. intros l r1 r2 A B. destruct (order_calls l r1 A) as (b & E & <-), (order_calls l r2 B) as (b' & E' & <-). rewrite E in E'. injection E' as <-. reflexivity. Qed.
Lemma calls_panic : forall l, b_calls l b_new = Panic <-> beyond l.
Proof.
  intros l. split.
  - induction l as [|a l IH] using rev_ind; [discriminate|]. rewrite calls_app. destruct (b_calls l b_new) as [b| |] eqn:K.
    + destruct (calls_ordered l b K) as [O _]. destruct a as [r|i r|w]; cbn; try discriminate. unfold b_insert_rule. destruct (i <=? List.length (b_rules b))%nat eqn:L; [discriminate|]. intros _.
      exists l, i, r, [], (b_rules b). split; [reflexivity|]. split; [exact O|]. apply Nat.leb_gt. exact L.
    + discriminate.
    + intros _. destruct (IH eq_refl) as (x & i & r & y & rules & -> & O & L). exists x, i, r, (y ++ [a]), rules. split; [rewrite <- app_assoc; reflexivity|]. auto.
  - intros (x & i & r & y & rules & -> & O & L). destruct (order_calls x rules O) as (b & E & <-). rewrite calls_app, E. cbn. unfold b_insert_rule. replace (i <=? _)%nat with false by (symmetry; apply Nat.leb_gt; exact L). reflexivity.
Qed.

(** Building a splitter panics exactly for an insertion beyond the rules there are. Otherwise the splitter has the rules in the order of
    the calls, and after them, if and only if the last call about white space says so, the dropping of white space. *)
Theorem C97_builder : forall calls, (b_calls calls b_new = Panic <-> beyond calls) /\
  (~ beyond calls -> exists b rules, b_calls calls b_new = Ok b /\ in_order calls rules /\ (forall rules', in_order calls rules' -> rules' = rules) /\
    (drops_white calls -> b_build b = rules ++ [skip_whitespace]) /\ (~ drops_white calls -> b_build b = rules)).
Proof.
  intros l. split; [apply calls_panic|]. intros N. destruct (b_calls l b_new) as [b|k|] eqn:K.
  - destruct (calls_ordered l b K) as [O W]. exists b, (b_rules b). split; [reflexivity|]. split; [exact O|]. split; [intros r' O'; exact (order_unique l _ _ O' O)|].
    unfold b_build. rewrite W. split; intros D; rewrite drops_iff in D.
    + rewrite D. reflexivity.
    + destruct (white_calls l) as [[|]|]; try reflexivity. congruence.
  - exfalso. clear N. revert k K. induction l as [|a l IH] using rev_ind; intros k K; [discriminate|]. rewrite calls_app in K. destruct (b_calls l b_new) as [b|k'|]; [|exact (IH k' eq_refl)|discriminate].
    destruct a; cbn in K; try discriminate. unfold b_insert_rule in K. destruct (_ <=? _)%nat; discriminate.
  - exfalso. apply N. apply calls_panic. exact K.
Qed.
Print Assumptions C97_builder.

(** With white space kept, the words of well behaved rules that drop nothing are the text. *)
Theorem C97_kept : forall rules, Forall well_behaved rules -> Forall (fun r : rule => forall c s, match r c s with (Data w, s') => w ++ s' = c :: s | (Skip, _) => False | _ => True end) rules ->
  forall s, List.concat (split_into_tokens rules s) = s.
Proof.
  intros rules H K s. assert (C := split_cut rules H s). induction C as [|b r a c s w s' ws E _ Q _ IH|b r a c s s' ws E _ Q _ IH|c s ws _ _ IH]; [reflexivity| | |cbn; rewrite IH; reflexivity].
  - cbn. rewrite IH. assert (X : In r rules) by (rewrite E; apply in_or_app; right; left; reflexivity). rewrite Forall_forall in K. specialize (K r X c s). rewrite Q in K. exact K.
  - assert (X : In r rules) by (rewrite E; apply in_or_app; right; left; reflexivity). rewrite Forall_forall in K. specialize (K r X c s). rewrite Q in K. contradiction.
Qed.
Print Assumptions C97_kept.

(** ** Sets of operators *)
Definition o_call (a : set_call) (ops : list char) : list char := match a with AddOperator c => o_add_operator c ops | Except c => o_except c ops end.
Lemma o_calls_in : forall calls start c, In c (fold_left (fun ops a => o_call a ops) calls start) <-> in_set (fun c => In c start) (rev calls) c.
Proof.
  intros calls start. induction calls as [|a calls IH] using rev_ind; intros c; [reflexivity|]. rewrite fold_left_app, rev_app_distr. cbn [fold_left rev app in_set]. set (ops := fold_left _ calls start) in *.
  destruct a as [d|d]; cbn [o_call about].
  - unfold o_add_operator. destruct (N.eqb_spec d c) as [->|N].
    + split; [auto|intros _]. destruct (existsb (N.eqb c) ops) eqn:E; [|left; reflexivity]. apply existsb_exists in E. destruct E as (x & X & Y). apply N.eqb_eq in Y. subst x. exact X.
    + rewrite <- IH. destruct (existsb (N.eqb d) ops); [reflexivity|]. split; [intros [X|X]; [congruence|exact X]|right; assumption].
  - unfold o_except, except. destruct (N.eqb_spec d c) as [->|N].
    + split; [|intros []]. intros X. apply filter_In in X. rewrite N.eqb_refl in X. destruct X. discriminate.
    + rewrite <- IH. split; intros X; [apply filter_In in X; tauto|]. apply filter_In. split; [exact X|]. apply negb_true_iff. apply N.eqb_neq. congruence.
Qed.

(** A rule for operators, built from the shipped characters or from none, takes the longest run of its characters, which are the ones
    that the last call about them adds, or that were there; it leaves every other character. *)
Theorem C97_operators : forall shipped calls, let start := if shipped : bool then operator_char else fun _ => False in
  let operator := in_set start (rev calls) in let r := o_build (fold_left (fun ops a => o_call a ops) calls (if shipped then o_new else o_empty)) in
  well_behaved r /\
  (forall c s, ~ operator c -> r c s = (Continue, s)) /\
  (forall c t s, operator c -> Forall operator t -> stops operator s -> r c (t ++ s) = (Data (c :: t), s)).
Proof.
  intros shipped calls start operator r. set (ops := fold_left (fun ops a => o_call a ops) calls (if shipped then o_new else o_empty)) in *.
  assert (O : forall c, existsb (N.eqb c) ops = true <-> operator c).
  { intros c. transitivity (In c ops).
    - rewrite existsb_exists. split; [intros (x & X & Y); apply N.eqb_eq in Y; subst x; exact X|]. intros X. exists c. split; [exact X|apply N.eqb_refl].
    - unfold ops. rewrite o_calls_in. unfold operator. assert (S : forall x, In x (if shipped then o_new else o_empty) <-> start x).
      { intros x. unfold start. destruct shipped; [|reflexivity]. rewrite <- op_spec. unfold is_operator_char, o_new. rewrite existsb_exists. split; [intros X; exists x; split; [exact X|apply N.eqb_refl]|].
        intros (y & Y & Z). apply N.eqb_eq in Z. subst y. exact Y. }
      generalize (rev calls). intros l. induction l as [|a l IH]; [apply S|]. cbn [in_set]. destruct (about a =? c)%N; [reflexivity|exact IH]. }
  unfold r, o_build, split_with_operators. split; [|split].
  - intros c s. destruct (existsb (N.eqb c) ops).
    + pose proof (take_while_suffix (fun c => existsb (N.eqb c) ops) s) as [u U]. destruct (take_while _ s) as [t q]. cbn in *. split; [exists u; exact U|discriminate].
    + split; [exists []; reflexivity|reflexivity].
  - intros c s N. apply (reflect_false _ _ (O c)) in N. rewrite N. reflexivity.
  - intros c t s C T S. rewrite (proj2 (O c) C), take_while_eq; [reflexivity| |].
    + apply (forall_b _ _ t O). exact T.
    + apply (stops_b (fun c => existsb (N.eqb c) ops) _ s O). exact S.
Qed.
Print Assumptions C97_operators.

(** ** A case *)
Local Open Scope string_scope. Local Open Scope N_scope.
(** Hexadecimal numbers: 0x and digits or letters A to F. *)
Definition hex_digit (c : char) : bool := is_digit c || ((65 <=? c) && (c <=? 70)).
Definition hex_rule : rule := fun c s => match s with
  | x :: s' => if (c =? 48) && (x =? 120) then let (t, q) := take_while hex_digit s' in (Data (c :: x :: t), q) else (Continue, s)
  | [] => (Continue, s) end.
Example hex_well_behaved : well_behaved hex_rule.
Proof.
  intros c s. unfold hex_rule. destruct s as [|x s]; [split; [exists []; reflexivity|reflexivity]|]. destruct ((c =? 48) && (x =? 120)); [|split; [exists []; reflexivity|reflexivity]].
  pose proof (take_while_suffix hex_digit s) as [u U]. destruct (take_while hex_digit s) as [t q]. cbn in *. split; [exists (x :: u); cbn; f_equal; exact U|discriminate].
Qed.
Example own_rules : split_into_tokens (with_numeric_rule hex_rule) (lit "0x1F + 12*Ax") = map lit ["0x1F"; "+"; "1"; "2"; "*"; "Ax"] /\
  split_into_tokens (with_identifier_rule hex_rule) (lit "0x1F + 12*Ax") = map lit ["0"; "x1F"; "+"; "12"; "*"; "Ax"].
Proof. split; reflexivity. Qed.
Example built : match b_calls [CallRule split_numeric; CallWhitespace RemoveWhitespace; CallInsert 0 hex_rule; CallRule (o_build (o_except 43%N o_new))] b_new with
  | Ok b => split_into_tokens (b_build b) (lit "0x1F ++ 1.5--7") = map lit ["0x1F"; "+"; "+"; "1.5"; "--"; "7"] | _ => False end.
Proof. reflexivity. Qed.
Example too_far : beyond [CallRule split_numeric; CallInsert 2 hex_rule].
Proof. exists [CallRule split_numeric], 2%nat, hex_rule, [], [split_numeric]. split; [reflexivity|]. split; [exact (order_rule [] [] split_numeric order_none)|]. cbn. lia. Qed.
