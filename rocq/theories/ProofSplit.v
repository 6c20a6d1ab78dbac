(** * Facts about splitting *)
From Coq Require Import List NArith Bool Arith Lia String.
From Verif Require Import ModelBase ModelText ModelSplit SpecLex.
Import ListNotations.
Local Open Scope N_scope.

(** ** Characters *)
Lemma between_spec : forall a b c, between a b c = true <-> a <= c <= b.
Proof. intros. unfold between. rewrite andb_true_iff, !N.leb_le. tauto. Qed.
Lemma digit_spec : forall c, is_digit c = true <-> digit c.
Proof. intros. apply between_spec. Qed.
Lemma letter_spec : forall c, is_ident_start c = true <-> letter c.
Proof.
  intros c. unfold is_ident_start, letter, is_alpha, is_upper, is_lower. rewrite !orb_true_iff, !between_spec, N.eqb_eq. tauto.
Qed.
Lemma ident_spec : forall c, is_ident_char c = true <-> letter c \/ digit c.
Proof.
  intros c. unfold is_ident_char. rewrite <- letter_spec, <- digit_spec. unfold is_ident_start. rewrite !orb_true_iff. tauto.
Qed.
Lemma op_spec : forall c, is_operator_char c = true <-> operator_char c.
Proof.
  intros c. unfold is_operator_char. rewrite existsb_exists. unfold operator_char. split.
  - intros (x & Hx & He). apply N.eqb_eq in He. subst x. unfold operator_chars in Hx. cbn in *. tauto.
  - intros H. exists c. split; [unfold operator_chars; cbn in *; tauto|apply N.eqb_refl].
Qed.
Lemma reflect_false : forall b P, (b = true <-> P) -> (b = false <-> ~ P).
Proof. intros [|] P H; split; intros A; try discriminate; try reflexivity; try tauto. intros X. apply H in X. discriminate. Qed.

(** ** Rules only consume *)
Definition suffix (r s : str) : Prop := exists p, s = p ++ r.
Definition tame (r : rule) : Prop := forall c s, suffix (snd (r c s)) s.
Lemma suffix_refl : forall s, suffix s s.
Proof. intros s. exists []. reflexivity. Qed.
Lemma suffix_trans : forall a b c, suffix a b -> suffix b c -> suffix a c.
Proof. intros a b c [p ->] [q ->]. exists (q ++ p). rewrite app_assoc. reflexivity. Qed.
Lemma suffix_length : forall r s, suffix r s -> (List.length r <= List.length s)%nat.
Proof. intros r s [p ->]. rewrite app_length. lia. Qed.
Lemma take_while_app : forall p s, fst (take_while p s) ++ snd (take_while p s) = s.
Proof. intros p. induction s as [|c s IH]; [reflexivity|]. simpl. destruct (p c); [|reflexivity]. destruct (take_while p s). simpl in *. f_equal. exact IH. Qed.
Lemma take_while_all : forall p s, Forall (fun c => p c = true) (fst (take_while p s)).
Proof. intros p. induction s as [|c s IH]; [constructor|]. simpl. destruct (p c) eqn:E; [|constructor]. destruct (take_while p s). simpl in *. constructor; assumption. Qed.
Lemma take_while_stop : forall p s, match snd (take_while p s) with c :: _ => p c = false | [] => True end.
Proof. intros p. induction s as [|c s IH]; [exact I|]. simpl. destruct (p c) eqn:E; [|exact E]. destruct (take_while p s). exact IH. Qed.
Lemma take_while_eq : forall p t s, Forall (fun c => p c = true) t -> match s with c :: _ => p c = false | [] => True end ->
  take_while p (t ++ s) = (t, s).
Proof.
  intros p. induction t as [|c t IH]; intros s Ht Hs.
  - destruct s as [|c s]; [reflexivity|]. simpl. rewrite Hs. reflexivity.
  - inversion Ht; subst. simpl. rewrite H1, (IH s H2 Hs). reflexivity.
Qed.
Lemma numeric_tail_suffix : forall s h, suffix (snd (numeric_tail h s)) s.
Proof.
  induction s as [|c s IH]; intros h; [apply suffix_refl|]. simpl. destruct (is_digit c).
  - specialize (IH h). destruct (numeric_tail h s). destruct IH as [p ->]. exists (c :: p). reflexivity.
  - destruct (c =? 46); [|apply suffix_refl]. destruct h; [exists [c]; reflexivity|]. specialize (IH true). destruct (numeric_tail true s). destruct IH as [p ->].
    exists (c :: p). reflexivity.
Qed.
Lemma take_while_suffix : forall p s, suffix (snd (take_while p s)) s.
Proof. intros p s. exists (fst (take_while p s)). symmetry. apply take_while_app. Qed.
Ltac tame_tac := intros c s; match goal with |- suffix (snd (if ?b then _ else _)) _ => destruct b; [|apply suffix_refl] end;
  match goal with
  | |- suffix (snd (let (_, _) := take_while ?p ?s in _)) _ => generalize (take_while_suffix p s); destruct (take_while p s); intros X; exact X
  | |- suffix (snd (let (_, _) := numeric_tail ?h ?s in _)) _ => generalize (numeric_tail_suffix s h); destruct (numeric_tail h s); intros X; exact X
  end.
Lemma tame_identifier : tame split_identifier. Proof. unfold split_identifier. tame_tac. Qed.
Lemma tame_numeric : tame split_numeric. Proof. unfold split_numeric. tame_tac. Qed.
Lemma tame_operator : tame split_operator. Proof. unfold split_operator. tame_tac. Qed.
Lemma tame_with_operators : forall ops, tame (split_with_operators ops). Proof. intros ops. unfold split_with_operators. tame_tac. Qed.
Lemma tame_whitespace : tame skip_whitespace. Proof. intros c s. unfold skip_whitespace. destruct (is_whitespace c); apply suffix_refl. Qed.
Lemma tame_binary : tame split_binary. Proof. unfold split_binary. cbv zeta. tame_tac. Qed.
Lemma tame_repl : tame split_repl. Proof. unfold split_repl. tame_tac. Qed.

Lemma apply_suffix : forall rules, Forall tame rules -> forall c s, suffix (snd (apply_rules rules c s)) s.
Proof.
  induction rules as [|r rules IH]; intros H c s; [apply suffix_refl|]. inversion H as [|? ? Hr Hs]; subst. simpl. pose proof (Hr c s) as T.
  destruct (r c s) as [[t| |] s']; simpl in *; try exact T. eapply suffix_trans; [apply IH; exact Hs|exact T].
Qed.
Lemma loop_fuel : forall rules, Forall tame rules -> forall f1 f2 s, (List.length s <= f1)%nat -> (List.length s <= f2)%nat ->
  split_loop f1 rules s = split_loop f2 rules s.
Proof.
  intros rules H. induction f1 as [|f1 IH]; intros f2 s H1 H2.
  - destruct s; [destruct f2; reflexivity|simpl in H1; lia].
  - destruct s as [|c s]; [destruct f2; reflexivity|]. destruct f2 as [|f2]; [simpl in H2; lia|]. simpl in *.
    pose proof (suffix_length _ _ (apply_suffix rules H c s)) as L. destruct (apply_rules rules c s) as [[t|] s']; simpl in L; [f_equal|]; apply IH; lia.
Qed.
Lemma split_cons : forall rules, Forall tame rules -> forall c s, split_into_tokens rules (c :: s) =
  match fst (apply_rules rules c s) with
  | Some t => t :: split_into_tokens rules (snd (apply_rules rules c s))
  | None => split_into_tokens rules (snd (apply_rules rules c s))
  end.
Proof.
  intros rules H c s. unfold split_into_tokens at 1. simpl. pose proof (suffix_length _ _ (apply_suffix rules H c s)) as L.
  destruct (apply_rules rules c s) as [[t|] s']; simpl in *; unfold split_into_tokens; [f_equal|]; apply loop_fuel; auto.
Qed.
Lemma split_nil : forall rules, split_into_tokens rules [] = [].
Proof. reflexivity. Qed.

(** ** The default splitter *)
Definition D := default_splitter.
Lemma tame_default : Forall tame D.
Proof. repeat constructor; [apply tame_numeric|apply tame_identifier|apply tame_operator|apply tame_whitespace]. Qed.
Definition dsplit (s : str) : list str := split_into_tokens D s.

Definition stopsb (p : char -> bool) (s : str) : Prop := match s with c :: _ => p c = false | [] => True end.
Lemma stops_b : forall p P s, (forall c, p c = true <-> P c) -> stops P s -> stopsb p s.
Proof. intros p P [|c s] H Hs; [exact I|]. simpl in *. apply (reflect_false _ _ (H c)). exact Hs. Qed.
Lemma b_stops : forall p P s, (forall c, p c = true <-> P c) -> stopsb p s -> stops P s.
Proof. intros p P [|c s] H Hs; [exact I|]. simpl in *. apply (reflect_false _ _ (H c)). exact Hs. Qed.
Lemma forall_b : forall (p : char -> bool) P s, (forall c, p c = true <-> P c) -> (Forall (fun c => p c = true) s <-> Forall P s).
Proof. intros p P s H. split; intros F; eapply Forall_impl; try exact F; intros c Hc; apply H; exact Hc. Qed.

Lemma stops_or : forall P Q s, stops (fun c => P c \/ Q c) s -> stops P s /\ stops Q s.
Proof. intros P Q [|c s] H; simpl in *; tauto. Qed.

Lemma tail_digits : forall t h s, Forall digit t -> stops (fun c => digit c \/ c = point) s -> numeric_tail h (t ++ s) = (t, s).
Proof.
  induction t as [|c t IH]; intros h s Ht Hs.
  - destruct s as [|c s]; [reflexivity|]. simpl in *. destruct (is_digit c) eqn:E; [apply digit_spec in E; tauto|].
    destruct (c =? 46) eqn:E2; [|reflexivity]. apply N.eqb_eq in E2. exfalso. apply Hs. right. exact E2.
  - inversion Ht; subst. simpl. apply digit_spec in H1. rewrite H1, (IH h s H2 Hs). reflexivity.
Qed.
Lemma tail_second : forall t s, Forall digit t -> numeric_tail true (t ++ point :: s) = (t, s).
Proof.
  induction t as [|c t IH]; intros s Ht; [reflexivity|]. inversion Ht; subst. simpl. apply digit_spec in H1. rewrite H1, (IH s H2). reflexivity.
Qed.
Lemma tail_point : forall t b r s, Forall digit t -> numeric_tail true s = (b, r) -> numeric_tail false (t ++ point :: s) = (t ++ point :: b, r).
Proof.
  induction t as [|c t IH]; intros b r s Ht Hs; [simpl; rewrite Hs; reflexivity|]. inversion Ht; subst. simpl. apply digit_spec in H1. rewrite H1, (IH b r s H2 Hs). reflexivity.
Qed.
Lemma point_not_digit : ~ digit point.
Proof. unfold digit, point. lia. Qed.

Lemma apply_digit : forall c s, digit c -> apply_rules D c s = (Some (c :: fst (numeric_tail false s)), snd (numeric_tail false s)).
Proof. intros c s H. apply digit_spec in H. unfold D, default_splitter, new_splitter. simpl. unfold split_numeric. rewrite H. destruct (numeric_tail false s). reflexivity. Qed.
Lemma letter_not_digit : forall c, letter c -> ~ digit c.
Proof. intros c [H|[H|H]] D; unfold digit in D; lia. Qed.
Lemma apply_letter : forall c s, letter c -> apply_rules D c s = (Some (c :: fst (take_while is_ident_char s)), snd (take_while is_ident_char s)).
Proof.
  intros c s H. pose proof (letter_not_digit c H) as N. apply (reflect_false _ _ (digit_spec c)) in N. apply letter_spec in H.
  unfold D, default_splitter, new_splitter. simpl. unfold split_numeric. rewrite N. unfold split_identifier. rewrite H. destruct (take_while is_ident_char s). reflexivity.
Qed.
Lemma op_not_digit : forall c, operator_char c -> ~ digit c.
Proof. intros c H D. unfold digit in D. unfold operator_char in H. cbn in H. lia. Qed.
Lemma apply_op : forall c s, operator_char c -> ~ letter c ->
  apply_rules D c s = (Some (c :: fst (take_while is_operator_char s)), snd (take_while is_operator_char s)).
Proof.
  intros c s H HL. pose proof (op_not_digit c H) as N. apply (reflect_false _ _ (digit_spec c)) in N. apply (reflect_false _ _ (letter_spec c)) in HL. apply op_spec in H.
  unfold D, default_splitter, new_splitter. simpl. unfold split_numeric. rewrite N. unfold split_identifier. rewrite HL. unfold split_operator. rewrite H. destruct (take_while is_operator_char s). reflexivity.
Qed.
Lemma apply_else : forall c s, ~ digit c -> ~ letter c -> ~ operator_char c ->
  apply_rules D c s = (if is_whitespace c then None else Some [c], s).
Proof.
  intros c s H1 H2 H3. apply (reflect_false _ _ (digit_spec c)) in H1. apply (reflect_false _ _ (letter_spec c)) in H2. apply (reflect_false _ _ (op_spec c)) in H3.
  unfold D, default_splitter, new_splitter. simpl. unfold split_numeric. rewrite H1. unfold split_identifier. rewrite H2. unfold split_operator. rewrite H3.
  unfold skip_whitespace. destruct (is_whitespace c); reflexivity.
Qed.
Lemma op_cases : forall c, operator_char c -> c < 128 /\ is_whitespace c = false.
Proof. intros c H. unfold operator_char in H. cbn in H. repeat (destruct H as [<-|H]; [split; [lia|reflexivity]|]). destruct H. Qed.
Lemma white_none : forall c, is_whitespace c = true -> ~ digit c /\ ~ letter c /\ ~ operator_char c.
Proof.
  intros c H. split; [|split].
  - intros E. unfold is_whitespace, between in H. unfold digit in E. rewrite !orb_true_iff, !andb_true_iff, !N.leb_le, !N.eqb_eq in H. lia.
  - intros E. unfold is_whitespace, between in H. unfold letter in E. rewrite !orb_true_iff, !andb_true_iff, !N.leb_le, !N.eqb_eq in H. lia.
  - intros E. apply op_cases in E. destruct E. congruence.
Qed.

Lemma dsplit_cons : forall c s, dsplit (c :: s) = match fst (apply_rules D c s) with
  | Some t => t :: dsplit (snd (apply_rules D c s)) | None => dsplit (snd (apply_rules D c s)) end.
Proof. intros. apply split_cons. apply tame_default. Qed.
Lemma split_space : forall c s, is_whitespace c = true -> dsplit (c :: s) = dsplit s.
Proof. intros c s H. rewrite dsplit_cons. destruct (white_none c H) as (A & B & C). rewrite (apply_else c s A B C), H. reflexivity. Qed.
Lemma split_number : forall n s, number_word n -> stops (fun c => digit c \/ c = point) s -> dsplit (n ++ s) = n :: dsplit s.
Proof.
  intros n s H Hs. destruct H as [[Hne Hd]|(a & b & -> & [Hne Ha] & Hb)].
  - destruct n as [|c t]; [congruence|]. inversion Hd; subst. simpl. rewrite dsplit_cons, (apply_digit c _ H1), (tail_digits t false s H2 Hs). reflexivity.
  - destruct a as [|c t]; [congruence|]. inversion Ha; subst. simpl. rewrite dsplit_cons, (apply_digit c _ H1).
    rewrite <- app_assoc. simpl. rewrite (tail_point t b s (b ++ s) H2 (tail_digits b true s Hb Hs)). reflexivity.
Qed.
Lemma split_second_point : forall n s, number_word n -> In point n -> dsplit (n ++ point :: s) = n :: dsplit s.
Proof.
  intros n s H Hp. destruct H as [[Hne Hd]|(a & b & -> & [Hne Ha] & Hb)].
  - exfalso. rewrite Forall_forall in Hd. apply Hd in Hp. apply point_not_digit. exact Hp.
  - destruct a as [|c t]; [congruence|]. inversion Ha; subst. simpl. rewrite dsplit_cons, (apply_digit c _ H1).
    rewrite <- app_assoc. simpl. rewrite (tail_point t b s (b ++ point :: s) H2 (tail_second b s Hb)). reflexivity.
Qed.
Lemma split_ident : forall n s, ident_word n -> stops (fun c => letter c \/ digit c) s -> dsplit (n ++ s) = n :: dsplit s.
Proof.
  intros n s (c & t & -> & Hc & Ht) Hs. simpl. rewrite dsplit_cons, (apply_letter c _ Hc). rewrite take_while_eq.
  - reflexivity.
  - apply (forall_b is_ident_char _ t ident_spec). exact Ht.
  - apply (stops_b is_ident_char _ s ident_spec). exact Hs.
Qed.
Lemma split_op : forall n s, operator_word n -> stops operator_char s -> dsplit (n ++ s) = n :: dsplit s.
Proof.
  intros n s (Hne & Ho & Hl) Hs. destruct n as [|c t]; [congruence|]. inversion Ho; subst. simpl. rewrite dsplit_cons, (apply_op c _ H1 (Hl c t eq_refl)). rewrite take_while_eq.
  - reflexivity.
  - apply (forall_b is_operator_char _ t op_spec). exact H2.
  - apply (stops_b is_operator_char _ s op_spec). exact Hs.
Qed.
Lemma split_other : forall n s, other_word n -> dsplit (n ++ s) = n :: dsplit s.
Proof. intros n s (c & -> & Hw & H1 & H2 & H3). simpl. rewrite dsplit_cons, (apply_else c _ H1 H2 H3), Hw. reflexivity. Qed.

Lemma lexes_split : forall s ws, lexes s ws -> dsplit s = ws.
Proof.
  induction 1 as [|c s ws Hc _ IH|n s ws Hn Hs _ IH|n s ws Hn Hp _ IH|n s ws Hn Hs _ IH|n s ws Hn Hs _ IH|n s ws Hn _ IH].
  - reflexivity.
  - rewrite split_space by exact Hc. exact IH.
  - rewrite split_number by assumption. f_equal. exact IH.
  - rewrite split_second_point by assumption. f_equal. exact IH.
  - rewrite split_ident by assumption. f_equal. exact IH.
  - rewrite split_op by assumption. f_equal. exact IH.
  - rewrite split_other by assumption. f_equal. exact IH.
Qed.

Lemma tail_true_cases : forall s, exists t r, numeric_tail true s = (t, r) /\ Forall digit t /\
  ((s = t ++ r /\ stops (fun c => digit c \/ c = point) r) \/ s = t ++ point :: r).
Proof.
  induction s as [|c s IH].
  - exists [], []. split; [reflexivity|]. split; [constructor|]. left. split; [reflexivity|exact I].
  - simpl. destruct (is_digit c) eqn:E.
    + apply digit_spec in E. destruct IH as (t & r & -> & Ht & Hr). exists (c :: t), r. split; [reflexivity|]. split; [constructor; assumption|].
      destruct Hr as [[-> Hr]| ->]; [left; auto|right; reflexivity].
    + destruct (c =? 46) eqn:E2.
      * apply N.eqb_eq in E2. subst c. exists [], s. split; [reflexivity|]. split; [constructor|]. right. reflexivity.
      * exists [], (c :: s). split; [reflexivity|]. split; [constructor|]. left. split; [reflexivity|]. simpl. intros [H|H]; [apply digit_spec in H; congruence|].
        apply N.eqb_neq in E2. apply E2. exact H.
Qed.
Lemma tail_false_cases : forall s, exists t r, numeric_tail false s = (t, r) /\
  ((Forall digit t /\ s = t ++ r /\ stops (fun c => digit c \/ c = point) r) \/
   (exists a b, t = a ++ point :: b /\ Forall digit a /\ Forall digit b /\ ((s = t ++ r /\ stops (fun c => digit c \/ c = point) r) \/ s = t ++ point :: r))).
Proof.
  induction s as [|c s IH].
  - exists [], []. split; [reflexivity|]. left. split; [constructor|]. split; [reflexivity|exact I].
  - simpl. destruct (is_digit c) eqn:E.
    + apply digit_spec in E. destruct IH as (t & r & -> & Hr). exists (c :: t), r. split; [reflexivity|].
      destruct Hr as [(Ht & -> & Hr)|(a & b & -> & Ha & Hb & Hr)]; [left|right].
      * split; [constructor; assumption|]. auto.
      * exists (c :: a), b. split; [reflexivity|]. split; [constructor; assumption|]. split; [exact Hb|]. destruct Hr as [[-> Hr]| ->]; [left; auto|right; reflexivity].
    + destruct (c =? 46) eqn:E2.
      * apply N.eqb_eq in E2. subst c. destruct (tail_true_cases s) as (t & r & -> & Ht & Hr). exists (46 :: t), r. split; [reflexivity|]. right.
        exists [], t. split; [reflexivity|]. split; [constructor|]. split; [exact Ht|]. destruct Hr as [[-> Hr]| ->]; [left; auto|right; reflexivity].
      * exists [], (c :: s). split; [reflexivity|]. left. split; [constructor|]. split; [reflexivity|]. simpl. intros [H|H]; [apply digit_spec in H; congruence|].
        apply N.eqb_neq in E2. apply E2. exact H.
Qed.

Lemma split_lexes : forall s, lexes s (dsplit s).
Proof.
  assert (A : forall n s, (List.length s <= n)%nat -> exists ws, lexes s ws).
  { induction n as [|n IH]; intros s Hn; [destruct s; [eexists; constructor|simpl in Hn; lia]|]. destruct s as [|c s]; [eexists; constructor|]. simpl in Hn.
    destruct (is_digit c) eqn:E1.
    { apply digit_spec in E1. destruct (tail_false_cases s) as (t & r & _ & [(Ht & -> & Hr)|(a & b & -> & Ha & Hb & [[-> Hr]| ->])]).
      - destruct (IH r) as [ws Hws]; [rewrite app_length in Hn; lia|]. exists ((c :: t) :: ws). apply (lexes_number (c :: t)); try assumption. left.
        split; [discriminate|constructor; assumption].
      - destruct (IH r) as [ws Hws]; [rewrite !app_length in Hn; lia|]. exists ((c :: a ++ point :: b) :: ws). apply (lexes_number (c :: a ++ point :: b)); try assumption.
        right. exists (c :: a), b. split; [reflexivity|]. split; [split; [discriminate|constructor; assumption]|exact Hb].
      - destruct (IH r) as [ws Hws]; [rewrite !app_length in Hn; simpl in Hn; lia|]. exists ((c :: a ++ point :: b) :: ws). apply (lexes_second_point (c :: a ++ point :: b)); try assumption.
        + right. exists (c :: a), b. split; [reflexivity|]. split; [split; [discriminate|constructor; assumption]|exact Hb].
        + right. apply in_or_app. right. left. reflexivity. }
    destruct (is_ident_start c) eqn:E2.
    { apply letter_spec in E2. pose proof (take_while_app is_ident_char s) as T. pose proof (take_while_all is_ident_char s) as A. pose proof (take_while_stop is_ident_char s) as B.
      destruct (take_while is_ident_char s) as [t r]. simpl in *. subst s. destruct (IH r) as [ws Hws]; [rewrite app_length in Hn; lia|].
      exists ((c :: t) :: ws). apply (lexes_ident (c :: t)); try assumption.
      - exists c, t. split; [reflexivity|]. split; [exact E2|]. apply (forall_b _ _ t ident_spec). exact A.
      - apply (b_stops is_ident_char); [apply ident_spec|exact B]. }
    destruct (is_operator_char c) eqn:E3.
    { apply op_spec in E3. pose proof (take_while_app is_operator_char s) as T. pose proof (take_while_all is_operator_char s) as A. pose proof (take_while_stop is_operator_char s) as B.
      destruct (take_while is_operator_char s) as [t r]. simpl in *. subst s. destruct (IH r) as [ws Hws]; [rewrite app_length in Hn; lia|].
      exists ((c :: t) :: ws). apply (lexes_operator (c :: t)); try assumption.
      - split; [discriminate|]. split; [constructor; [exact E3|apply (forall_b _ _ t op_spec); exact A]|]. intros c' t' H. injection H as <- <-.
        apply (reflect_false _ _ (letter_spec c)). exact E2.
      - apply (b_stops is_operator_char); [apply op_spec|exact B]. }
    destruct (IH s) as [ws Hws]; [lia|]. destruct (is_whitespace c) eqn:Ew; [exists ws; constructor; assumption|]. exists ([c] :: ws).
    apply (lexes_other [c]); [|exact Hws]. exists c. split; [reflexivity|]. split; [exact Ew|].
    split; [apply (reflect_false _ _ (digit_spec c)); exact E1|]. split; [apply (reflect_false _ _ (letter_spec c)); exact E2|apply (reflect_false _ _ (op_spec c)); exact E3]. }
  intros s. destruct (A (List.length s) s (le_n _)) as [ws H]. rewrite (lexes_split s ws H). exact H.
Qed.
