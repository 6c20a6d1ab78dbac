(** * Consequences for white space, and the other splitters *)
From Coq Require Import List NArith Bool Arith Lia String.
From Verif Require Import ModelBase ModelText ModelSplit SpecLex ProofSplit.
Import ListNotations.
Local Open Scope N_scope.

Lemma sub_refl : forall A (l : list A), sub l l.
Proof. intros A. induction l; constructor; assumption. Qed.
Lemma sub_app : forall A (a b c d : list A), sub a b -> sub c d -> sub (a ++ c) (b ++ d).
Proof. intros A a b c d H. revert c d. induction H; intros; simpl; [assumption|constructor; auto|constructor; auto]. Qed.
Lemma sub_nil_l : forall A (l : list A), sub [] l.
Proof. intros A. induction l; constructor; assumption. Qed.

Lemma digit_visible : forall c, digit c -> is_whitespace c = false.
Proof. intros c H. destruct (is_whitespace c) eqn:E; [|reflexivity]. destruct (white_none c E). tauto. Qed.
Lemma letter_visible : forall c, letter c -> is_whitespace c = false.
Proof. intros c H. destruct (is_whitespace c) eqn:E; [|reflexivity]. destruct (white_none c E). tauto. Qed.
Lemma op_visible : forall c, operator_char c -> is_whitespace c = false.
Proof. intros c H. apply op_cases in H. tauto. Qed.
Lemma number_visible : forall n, number_word n -> Forall (fun c => is_whitespace c = false) n.
Proof.
  intros n [[_ H]|(a & b & -> & [_ Ha] & Hb)].
  - eapply Forall_impl; [|exact H]. apply digit_visible.
  - apply Forall_app. split; [eapply Forall_impl; [|exact Ha]; apply digit_visible|]. constructor; [reflexivity|]. eapply Forall_impl; [|exact Hb]; apply digit_visible.
Qed.
Lemma word_visible : forall n, a_word n -> n <> [] /\ Forall (fun c => is_whitespace c = false) n.
Proof.
  intros n [H|[H|[H|H]]].
  - split; [|apply number_visible; exact H]. destruct H as [[H _]|(a & b & -> & [H _] & _)]; [exact H|]. destruct a; [congruence|discriminate].
  - destruct H as (c & t & -> & Hc & Ht). split; [discriminate|]. constructor; [apply letter_visible; exact Hc|]. eapply Forall_impl; [|exact Ht].
    intros x [Hx|Hx]; [apply letter_visible|apply digit_visible]; exact Hx.
  - destruct H as (Hne & Ho & _). split; [exact Hne|]. eapply Forall_impl; [|exact Ho]. apply op_visible.
  - destruct H as (c & -> & Hw & _). split; [discriminate|]. constructor; [exact Hw|constructor].
Qed.
Lemma lexes_words : forall s ws, lexes s ws -> Forall a_word ws.
Proof. induction 1; try (constructor; [|assumption]); try assumption; unfold a_word; auto. Qed.
Lemma visible_filter : forall n, Forall (fun c => is_whitespace c = false) n -> without_spaces n = n.
Proof. induction 1 as [|c n Hc _ IH]; [reflexivity|]. unfold without_spaces in *. simpl. rewrite Hc. simpl. f_equal. exact IH. Qed.
Lemma without_app : forall a b, without_spaces (a ++ b) = without_spaces a ++ without_spaces b.
Proof. intros. apply filter_app. Qed.

Lemma lexes_conserve : forall s ws, lexes s ws -> sub (List.concat ws) (without_spaces s) /\ (~ second_point s -> List.concat ws = without_spaces s).
Proof.
  assert (T : forall n s, second_point s -> second_point (n ++ s)).
  { intros n s (a & d & ds & b & -> & H). exists (n ++ a), d, ds, b. rewrite <- app_assoc. tauto. }
  assert (W : forall n s ws, a_word n -> sub (List.concat ws) (without_spaces s) /\ (~ second_point s -> List.concat ws = without_spaces s) ->
    sub (List.concat (n :: ws)) (without_spaces (n ++ s)) /\ (~ second_point (n ++ s) -> List.concat (n :: ws) = without_spaces (n ++ s))).
  { intros n s ws Hn [H1 H2]. apply word_visible in Hn. destruct Hn as [_ Hn]. rewrite without_app, (visible_filter n Hn). simpl. split.
    - apply sub_app; [apply sub_refl|exact H1].
    - intros Hs. rewrite H2; [reflexivity|]. intros X. apply Hs. apply T. exact X. }
  induction 1 as [|c s ws Hc _ IH|n s ws Hn Hs _ IH|n s ws Hn Hp _ IH|n s ws Hn Hs _ IH|n s ws Hn Hs _ IH|n s ws Hn _ IH].
  - split; [constructor|reflexivity].
  - destruct IH as [H1 H2]. change (c :: s) with ([c] ++ s). rewrite without_app. unfold without_spaces at 1 3. simpl. rewrite Hc. simpl. split; [exact H1|].
    intros Hs. apply H2. intros X. apply Hs. apply (T [c] s X).
  - apply W; [left; exact Hn|exact IH].
  - destruct (W n s ws (or_introl Hn) IH) as [H1 H2]. apply or_introl with (B := ident_word n \/ operator_word n \/ other_word n) in Hn as Hw. apply word_visible in Hw. destruct Hw as [_ Hv].
    split.
    + rewrite without_app in *. eapply (fun A a b c => sub_app A a b c). { rewrite (visible_filter n Hv). apply sub_refl. }
      unfold without_spaces. simpl. constructor. apply IH.
    + intros Hs. exfalso. apply Hs. destruct Hn as [[_ Hd]|(a & b & -> & [Hne Ha] & Hb)].
      * rewrite Forall_forall in Hd. apply Hd in Hp. destruct (point_not_digit Hp).
      * destruct (exists_last Hne) as (a' & d & ->). apply Forall_app in Ha. destruct Ha as [_ Ha]. inversion Ha; subst.
        exists a', d, b, s. split; [repeat (rewrite <- app_assoc; simpl); reflexivity|]. split; assumption.
  - apply W; [right; left; exact Hn|exact IH].
  - apply W; [right; right; left; exact Hn|exact IH].
  - apply W; [right; right; right; exact Hn|exact IH].
Qed.

(** ** White space is a boundary for every shipped rule *)
Definition local (r : rule) : Prop := forall c a w b, is_whitespace w = true -> r c (a ++ w :: b) = (fst (r c a), snd (r c a) ++ w :: b).
Lemma take_while_local : forall p, (forall w, is_whitespace w = true -> p w = false) -> forall a w b, is_whitespace w = true ->
  take_while p (a ++ w :: b) = (fst (take_while p a), snd (take_while p a) ++ w :: b).
Proof.
  intros p Hp. induction a as [|c a IH]; intros w b Hw; simpl; [rewrite (Hp w Hw); reflexivity|]. destruct (p c); [|reflexivity].
  rewrite (IH w b Hw). destruct (take_while p a). reflexivity.
Qed.
Lemma numeric_local : forall a h w b, is_whitespace w = true -> numeric_tail h (a ++ w :: b) = (fst (numeric_tail h a), snd (numeric_tail h a) ++ w :: b).
Proof.
  induction a as [|c a IH]; intros h w b Hw; simpl.
  - destruct (white_none w Hw) as (A & _ & C). apply (reflect_false _ _ (digit_spec w)) in A. rewrite A. destruct (w =? 46) eqn:E; [|reflexivity].
    apply N.eqb_eq in E. exfalso. apply C. subst w. unfold operator_char. cbn. tauto.
  - destruct (is_digit c); [rewrite (IH h w b Hw); destruct (numeric_tail h a); reflexivity|]. destruct (c =? 46); [|reflexivity]. destruct h; [reflexivity|].
    rewrite (IH true w b Hw). destruct (numeric_tail true a). reflexivity.
Qed.
Lemma ident_white : forall w, is_whitespace w = true -> is_ident_char w = false.
Proof. intros w H. apply (reflect_false _ _ (ident_spec w)). destruct (white_none w H). tauto. Qed.
Lemma op_white : forall w, is_whitespace w = true -> is_operator_char w = false.
Proof. intros w H. apply (reflect_false _ _ (op_spec w)). destruct (white_none w H). tauto. Qed.
Lemma digit_white : forall w, is_whitespace w = true -> is_digit w = false.
Proof. intros w H. apply (reflect_false _ _ (digit_spec w)). destruct (white_none w H). tauto. Qed.
Definition no_white (ops : list char) : bool := forallb (fun c => negb (is_whitespace c)) ops.
Lemma ops_white : forall ops, no_white ops = true -> forall w, is_whitespace w = true -> existsb (N.eqb w) ops = false.
Proof.
  intros ops H w Hw. destruct (existsb (N.eqb w) ops) eqn:E; [|reflexivity]. apply existsb_exists in E. destruct E as (x & Hx & He). apply N.eqb_eq in He. subst x.
  unfold no_white in H. rewrite forallb_forall in H. specialize (H w Hx). rewrite Hw in H. discriminate.
Qed.
Ltac local_tac L := intros c a w b Hw; match goal with |- (if ?x then _ else _) = _ => destruct x; [|reflexivity] end; rewrite L by exact Hw; 
  match goal with |- context [fst (take_while ?p ?y)] => destruct (take_while p y) | |- context [fst (numeric_tail ?h ?y)] => destruct (numeric_tail h y) end; reflexivity.
Lemma local_identifier : local split_identifier. Proof. unfold split_identifier. local_tac (take_while_local _ ident_white). Qed.
Lemma local_numeric : local split_numeric. Proof. unfold split_numeric. local_tac numeric_local. Qed.
Lemma local_operator : local split_operator. Proof. unfold split_operator. local_tac (take_while_local _ op_white). Qed.
Lemma local_with : forall ops, no_white ops = true -> local (split_with_operators ops).
Proof.
  intros ops H. set (p := fun c : char => existsb (N.eqb c) ops). change (split_with_operators ops) with (fun (c : char) rest => if p c then let (t, r) := take_while p rest in (Data (c :: t), r) else (Continue, rest)).
  local_tac (take_while_local p (ops_white ops H)).
Qed.
Lemma local_repl : local split_repl. Proof. unfold split_repl. local_tac (take_while_local _ ident_white). Qed.
Lemma local_whitespace : local skip_whitespace. Proof. intros c a w b Hw. unfold skip_whitespace. destruct (is_whitespace c); reflexivity. Qed.
Lemma local_binary : local split_binary.
Proof.
  intros c a w b Hw. unfold split_binary. cbv zeta.
  assert (E : match a ++ w :: b with n :: _ => (n =? 49) || (n =? 48) | [] => false end = match a with n :: _ => (n =? 49) || (n =? 48) | [] => false end).
  { destruct a; [|reflexivity]. simpl. pose proof (digit_white w Hw) as Hd. destruct (w =? 49) eqn:E1; [apply N.eqb_eq in E1; subst; discriminate|].
    destruct (w =? 48) eqn:E2; [apply N.eqb_eq in E2; subst; discriminate|]. reflexivity. }
  rewrite E. match goal with |- (if ?x then _ else _) = _ => destruct x; [|reflexivity] end.
  rewrite (take_while_local _ digit_white) by exact Hw. destruct (take_while is_digit a). reflexivity.
Qed.

Lemma apply_local : forall rules, Forall local rules -> forall c a w b, is_whitespace w = true ->
  apply_rules rules c (a ++ w :: b) = (fst (apply_rules rules c a), snd (apply_rules rules c a) ++ w :: b).
Proof.
  induction rules as [|r rules IH]; intros H c a w b Hw; [reflexivity|]. inversion H as [|? ? Hr Hs]; subst. simpl. rewrite (Hr c a w b Hw).
  destruct (r c a) as [[t| |] a']; simpl; try reflexivity. apply IH; assumption.
Qed.
Lemma split_boundary : forall rules, Forall tame rules -> Forall local rules -> forall a w b, is_whitespace w = true ->
  split_into_tokens rules (a ++ w :: b) = split_into_tokens rules a ++ split_into_tokens rules (w :: b).
Proof.
  intros rules Ht Hl. assert (A : forall n a w b, (List.length a <= n)%nat -> is_whitespace w = true ->
    split_into_tokens rules (a ++ w :: b) = split_into_tokens rules a ++ split_into_tokens rules (w :: b)).
  { induction n as [|n IH]; intros a w b Hn Hw; [destruct a; [reflexivity|simpl in Hn; lia]|]. destruct a as [|c a]; [reflexivity|]. simpl in Hn.
    change ((c :: a) ++ w :: b) with (c :: (a ++ w :: b)). rewrite !(split_cons rules Ht c). rewrite (apply_local rules Hl c a w b Hw).
    pose proof (suffix_length _ _ (apply_suffix rules Ht c a)) as L. destruct (apply_rules rules c a) as [[t|] a']; cbn [fst snd] in *.
    - simpl. f_equal. apply IH; [lia|exact Hw].
    - apply IH; [lia|exact Hw]. }
  intros a w b. apply (A (List.length a)). apply le_n.
Qed.
(** White space is skipped. *)
Definition skips (rules : list rule) : Prop := forall w b, is_whitespace w = true -> apply_rules rules w b = (None, b).
Lemma split_blank : forall rules, Forall tame rules -> skips rules -> forall w b, blank w -> split_into_tokens rules (w ++ b) = split_into_tokens rules b.
Proof.
  intros rules Ht Hk w b Hw. induction Hw as [|c w Hc _ IH]; [reflexivity|]. simpl. rewrite (split_cons rules Ht), (Hk c _ Hc). exact IH.
Qed.
Lemma split_spaced : forall rules, Forall tame rules -> Forall local rules -> skips rules -> forall a w b, blank w -> w <> [] ->
  split_into_tokens rules (a ++ w ++ b) = split_into_tokens rules a ++ split_into_tokens rules b.
Proof.
  intros rules Ht Hl Hk a w b Hw Hne. destruct w as [|c w]; [congruence|]. inversion Hw; subst. simpl. rewrite split_boundary by assumption. f_equal.
  change (c :: w ++ b) with ((c :: w) ++ b). apply split_blank; assumption.
Qed.

(** The splitters of the library and of the REPL. *)
Definition splitters : list (list rule) := [default_splitter; binary_number_splitter; repl_splitter false; repl_splitter true].
Lemma splitters_ok : forall rules, In rules splitters -> Forall tame rules /\ Forall local rules /\ skips rules.
Proof.
  assert (K : forall rules, Forall (fun r => forall w b, is_whitespace w = true -> r w b = (Continue, b)) rules -> skips (rules ++ [skip_whitespace])).
  { intros rules H w b Hw. induction H as [|r rules Hr _ IH]; simpl; [unfold skip_whitespace; rewrite Hw; reflexivity|]. rewrite Hr by exact Hw. exact IH. }
  assert (K1 : forall w b, is_whitespace w = true -> split_numeric w b = (Continue, b)).
  { intros w b Hw. unfold split_numeric. rewrite digit_white by exact Hw. reflexivity. }
  assert (K2 : forall w b, is_whitespace w = true -> split_identifier w b = (Continue, b)).
  { intros w b Hw. unfold split_identifier. destruct (is_ident_start w) eqn:E; [|reflexivity]. apply letter_spec in E. destruct (white_none w Hw). tauto. }
  assert (K3 : forall w b, is_whitespace w = true -> split_operator w b = (Continue, b)).
  { intros w b Hw. unfold split_operator. rewrite op_white by exact Hw. reflexivity. }
  assert (K4 : forall ops, no_white ops = true -> forall w b, is_whitespace w = true -> split_with_operators ops w b = (Continue, b)).
  { intros ops Ho w b Hw. unfold split_with_operators. rewrite (ops_white ops Ho) by exact Hw. reflexivity. }
  assert (K5 : forall w b, is_whitespace w = true -> split_binary w b = (Continue, b)).
  { intros w b Hw. unfold split_binary. replace (w =? 98) with false; [reflexivity|]. symmetry. apply N.eqb_neq. intros ->. discriminate. }
  assert (K6 : forall w b, is_whitespace w = true -> split_repl w b = (Continue, b)).
  { intros w b Hw. unfold split_repl. replace (w =? 36) with false; [reflexivity|]. symmetry. apply N.eqb_neq. intros ->. discriminate. }
  intros rules H. destruct H as [<-|[<-|[<-|[<-|[]]]]]; (split; [|split]).
  all: try (apply (K [split_numeric; split_identifier; split_operator]); repeat constructor; assumption).
  all: try (apply (K [split_binary; split_numeric; split_identifier; split_operator]); repeat constructor; assumption).
  all: try (apply (K [split_repl; split_numeric; split_identifier; split_with_operators (except operator_chars 36)]); repeat constructor; try assumption; apply K4; reflexivity).
  all: try (apply (K [split_binary; split_repl; split_numeric; split_identifier; split_with_operators (except operator_chars 36)]); repeat constructor; try assumption; apply K4; reflexivity).
  all: unfold default_splitter, new_splitter, binary_number_splitter, repl_splitter, build_splitter; simpl;
    repeat apply Forall_cons; try apply Forall_nil.
  all: first [apply tame_identifier|apply tame_numeric|apply tame_operator|apply tame_whitespace|apply tame_binary|apply tame_repl|apply tame_with_operators|
              apply local_identifier|apply local_numeric|apply local_operator|apply local_whitespace|apply local_binary|apply local_repl|apply local_with; reflexivity].
Qed.

(** The words of a written text. *)
Lemma single_word : forall n, a_word n -> dsplit n = [n].
Proof.
  intros n H. rewrite <- (app_nil_r n) at 1. destruct H as [H|[H|[H|H]]]; [rewrite split_number|rewrite split_ident|rewrite split_op|rewrite split_other]; try exact H; try exact I; reflexivity.
Qed.
Lemma written_split : forall ws s, Forall a_word ws -> written ws s -> dsplit s = ws.
Proof.
  intros ws s Hw H. destruct (splitters_ok default_splitter) as (T & L & K); [left; reflexivity|].
  induction H as [w Hb|w t ws s Hb H IH Hs].
  - rewrite <- (app_nil_r w). unfold dsplit, D. rewrite split_blank by assumption. reflexivity.
  - inversion Hw; subst. unfold dsplit, D. rewrite split_blank by assumption. destruct s as [|c s].
    + rewrite app_nil_r. specialize (IH H3). unfold dsplit, D in IH. simpl in IH. subst ws. apply single_word. assumption.
    + rewrite split_boundary by (try assumption; exact Hs). fold D. fold (dsplit t). rewrite single_word by assumption. simpl. f_equal. apply IH. assumption.
Qed.

(** ** Any list of shipped rules *)
Inductive shipped : rule -> Prop :=
| shipped_identifier : shipped split_identifier
| shipped_numeric : shipped split_numeric
| shipped_operator : shipped split_operator
| shipped_with : forall ops, shipped (split_with_operators ops)
| shipped_whitespace : shipped skip_whitespace
| shipped_binary : shipped split_binary
| shipped_repl : shipped split_repl.
Lemma shipped_tame : forall r, shipped r -> tame r.
Proof. intros r H. destruct H; [apply tame_identifier|apply tame_numeric|apply tame_operator|apply tame_with_operators|apply tame_whitespace|apply tame_binary|apply tame_repl]. Qed.
(** What a rule returns is not empty and was in the input. *)
Definition honest (r : rule) : Prop := forall c s, match r c s with
  | (Data t, s') => t <> [] /\ sub (t ++ s') (c :: s)
  | (Continue, s') => s' = s
  | (Skip, s') => s' = s
  end.
Lemma take_honest : forall p (c : char) s, sub ((c :: fst (take_while p s)) ++ snd (take_while p s)) (c :: s).
Proof. intros. simpl. rewrite take_while_app. apply sub_refl. Qed.
Lemma tail_honest : forall s h, sub (fst (numeric_tail h s) ++ snd (numeric_tail h s)) s.
Proof.
  induction s as [|c s IH]; intros h; simpl; [constructor|]. destruct (is_digit c).
  - specialize (IH h). destruct (numeric_tail h s). simpl in *. constructor. exact IH.
  - destruct (c =? 46); [|apply sub_refl]. destruct h; [simpl; constructor; apply sub_refl|]. specialize (IH true). destruct (numeric_tail true s). simpl in *. constructor. exact IH.
Qed.
Lemma shipped_honest : forall r, shipped r -> honest r.
Proof.
  intros r H c s.
  destruct H; unfold split_identifier, split_numeric, split_operator, split_with_operators, skip_whitespace, split_binary, split_repl; cbv zeta;
    match goal with |- context [if ?b then _ else _] => destruct b; [|reflexivity] end; try reflexivity.
  all: try (match goal with |- context [take_while ?p ?s] => pose proof (take_honest p c s) as X; destruct (take_while p s); split; [discriminate|exact X] end).
  pose proof (tail_honest s false) as X. destruct (numeric_tail false s). simpl in *. split; [discriminate|]. constructor. exact X.
Qed.
Lemma apply_honest : forall rules, Forall honest rules -> forall c s, match apply_rules rules c s with
  | (Some t, s') => t <> [] /\ sub (t ++ s') (c :: s) | (None, s') => s' = s end.
Proof.
  induction rules as [|r rules IH]; intros H c s; simpl; [split; [discriminate|apply sub_refl]|]. inversion H as [|? ? Hr Hs]; subst. specialize (Hr c s).
  destruct (r c s) as [[t| |] s']; try exact Hr. subst s'. apply IH. exact Hs.
Qed.
Lemma sub_trans : forall A (a b c : list A), sub a b -> sub b c -> sub a c.
Proof.
  intros A a b c H1 H2. revert a H1. induction H2; intros a' H1; [exact H1| |constructor; auto].
  inversion H1; subst; constructor; auto.
Qed.
Lemma split_honest : forall rules, Forall shipped rules -> forall s,
  Forall (fun t => t <> []) (split_into_tokens rules s) /\ sub (List.concat (split_into_tokens rules s)) s.
Proof.
  intros rules H. assert (T : Forall tame rules) by (eapply Forall_impl; [|exact H]; apply shipped_tame).
  assert (Ho : Forall honest rules) by (eapply Forall_impl; [|exact H]; apply shipped_honest).
  assert (A : forall n s, (List.length s <= n)%nat -> Forall (fun t => t <> []) (split_into_tokens rules s) /\ sub (List.concat (split_into_tokens rules s)) s).
  { induction n as [|n IH]; intros s Hn; [destruct s; [split; constructor|simpl in Hn; lia]|]. destruct s as [|c s]; [split; constructor|]. simpl in Hn.
    rewrite (split_cons rules T). pose proof (suffix_length _ _ (apply_suffix rules T c s)) as L. pose proof (apply_honest rules Ho c s) as Q.
    destruct (apply_rules rules c s) as [[t|] s']; cbn [fst snd] in *.
    - destruct (IH s' ltac:(lia)) as [I1 I2]. destruct Q as [Q1 Q2]. split; [constructor; assumption|]. simpl. eapply sub_trans; [|exact Q2]. apply sub_app; [apply sub_refl|exact I2].
    - subst s'. destruct (IH s ltac:(lia)) as [I1 I2]. split; [exact I1|]. constructor. exact I2. }
  intros s. apply (A (List.length s)). apply le_n.
Qed.
Lemma sub_forall : forall A (P : A -> Prop) a b, sub a b -> Forall P b -> Forall P a.
Proof. intros A P a b H. induction H; intros F; [constructor| |]; inversion F; subst; auto. Qed.
