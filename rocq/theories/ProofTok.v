(** * Facts about the tokenizer *)
From Coq Require Import List NArith Bool Arith Lia String.
From Verif Require Import ModelBase ModelContext ModelEvaluator ModelText ModelStr ModelSplit ModelTokenizer SpecExpr SpecLex SpecTokenizer ProofText ProofSplit ProofLex.
Import ListNotations.

Lemma some_spec : forall A (o : option A), is_some o = true <-> o <> None.
Proof. intros A [x|]; simpl; split; congruence. Qed.
Lemma some_false : forall A (o : option A), is_some o = false <-> o = None.
Proof. intros A [x|]; simpl; split; congruence. Qed.

Section Tok.
Context {V W : Type}.
Variable c : ctx V W.
Variable parse : str -> option V.

Lemma close_spec : forall p, is_close_symbol c p = true <-> exists g, p = [grouping_close g].
Proof.
  intros p. unfold is_close_symbol, single_char. destruct p as [|x [|y p]]; simpl; try (split; [discriminate|intros [g H]; discriminate H]).
  unfold is_group_close, grouping_new, char_eqb. split.
  - intros H. destruct (x =? 40)%N eqn:E1; [apply N.eqb_eq in E1; subst x; discriminate|]. destruct (x =? 41)%N eqn:E2; [apply N.eqb_eq in E2; subst x; exists Parenthesis; reflexivity|].
    destruct (x =? 91)%N eqn:E3; [apply N.eqb_eq in E3; subst x; discriminate|]. destruct (x =? 93)%N eqn:E4; [apply N.eqb_eq in E4; subst x; exists Bracket; reflexivity|].
    destruct (x =? 123)%N eqn:E5; [apply N.eqb_eq in E5; subst x; discriminate|]. destruct (x =? 125)%N eqn:E6; [apply N.eqb_eq in E6; subst x; exists Brace; reflexivity|]. discriminate.
  - intros [[| |] H]; injection H as ->; reflexivity.
Qed.
Lemma ends_spec : forall p, is_close_symbol c p || is_value_name c parse p = true <-> ends_operand c parse p.
Proof.
  intros p. unfold is_value_name, ends_operand, variable, constant. rewrite !orb_true_iff, close_spec. unfold is_variable, is_constant. rewrite !some_spec. tauto.
Qed.
Lemma notation_of : forall s op, get_unary c s = Some op -> forall n, has_notation c s n <-> uf_notation op = n.
Proof.
  intros s op H n. unfold has_notation. split; [intros (f & H1 & H2); congruence|]. intros H2. exists op. auto.
Qed.
Lemma first_byte_cases : forall p, (exists ch t, p = ch :: t /\ first_byte p = Ok [ch]) \/ first_byte p = Panic.
Proof. intros [|ch t]; [right; reflexivity|]. simpl. destruct (is_ascii ch); [left; eauto|right; reflexivity]. Qed.
Lemma lone_spec : forall p, match p with [ch] => is_ascii_punctuation ch | _ => true end = true <-> ~ lone_non_punctuation p.
Proof.
  intros [|x [|y p]]; unfold lone_non_punctuation.
  - split; [intros _ (ch & H & _); discriminate|reflexivity].
  - split; [intros H (ch & He & Hp); injection He as ->; congruence|]. intros H. destruct (is_ascii_punctuation x) eqn:E; [reflexivity|]. exfalso. apply H. exists x. auto.
  - split; [intros _ (ch & H & _); discriminate|reflexivity].
Qed.
Lemma starts_spec : forall ch t, is_unary_function c [ch] && negb (is_binary_function c [ch]) = true <-> starts_unary_only c (ch :: t).
Proof.
  intros ch t. unfold starts_unary_only, unary, binary, is_unary_function, is_binary_function. rewrite andb_true_iff, negb_true_iff, some_spec, some_false. split.
  - intros [H1 H2]. exists ch, t. rewrite H2. auto.
  - intros (ch' & t' & H & H1 & H2). injection H as <- <-. split; [exact H1|]. destruct (get_binary c [ch]); [exfalso; apply H2; discriminate|reflexivity].
Qed.

Lemma is_unary_spec : forall prev s hn b, is_unary c parse prev s hn = Ok b -> (b = true <-> unary_here c parse prev s (hn = false)).
Proof.
  intros prev s hn b H. unfold is_unary in H. unfold unary_here. destruct (get_unary c s) as [op|] eqn:Hu.
  2:{ injection H as <-. split; [discriminate|]. intros [[(f & Hf & _) _]|[(f & Hf & _) _]]; congruence. }
  rewrite !(notation_of s op Hu). destruct (uf_notation op) eqn:En.
  - split.
    + intros ->. right. split; [reflexivity|]. destruct hn; [|simpl in H; discriminate]. simpl in H. split; [discriminate|].
      intros p ->. destruct (is_close_symbol c p) eqn:E1; [discriminate|]. destruct (is_value_name c parse p) eqn:E2; [discriminate|].
      split; [intros X; apply ends_spec in X; rewrite E1, E2 in X; discriminate|].
      destruct (first_byte_cases p) as [(ch & t & -> & Hb)|Hb]; rewrite Hb in H; [|discriminate]. cbn [rbind] in H.
      destruct (is_unary_function c [ch] && negb (is_binary_function c [ch])) eqn:E3; [discriminate|].
      split; [intros X; apply (starts_spec ch t) in X; congruence|]. injection H as H. apply (proj1 (lone_spec (ch :: t))). exact H.
    + intros [[X _]|(_ & Hl & Hp)]; [discriminate|]. destruct hn; [|exfalso; apply Hl; reflexivity]. simpl in H. destruct prev as [p|]; [|congruence].
      destruct (Hp p eq_refl) as (P1 & P2 & P3). rewrite <- ends_spec in P1. destruct (is_close_symbol c p); [exfalso; apply P1; reflexivity|].
      destruct (is_value_name c parse p); [exfalso; apply P1; reflexivity|]. destruct (first_byte_cases p) as [(ch & t & -> & Hb)|Hb]; rewrite Hb in H; [|discriminate].
      cbn [rbind] in H. destruct (is_unary_function c [ch] && negb (is_binary_function c [ch])) eqn:E3; [exfalso; apply P2; apply starts_spec; exact E3|].
      injection H as <-. apply (proj2 (lone_spec (ch :: t))). exact P3.
  - injection H as <-. split.
    + intros X. left. split; [reflexivity|]. destruct prev as [p|]; [|discriminate]. exists p. split; [reflexivity|]. apply ends_spec. exact X.
    + intros [(_ & p & -> & Hp)|[X _]]; [|discriminate]. apply ends_spec. exact Hp.
Qed.
Lemma ends_dec : forall p, ends_operand c parse p \/ ~ ends_operand c parse p.
Proof. intros p. rewrite <- ends_spec. destruct (_ || _); [left; reflexivity|right; discriminate]. Qed.
Lemma ascii_dec : forall p, begins_ascii p \/ ~ begins_ascii p.
Proof.
  intros [|ch t]; [right; intros (x & y & H & _); discriminate|]. destruct (ch <? 128)%N eqn:E; [left; exists ch, t; split; [reflexivity|apply N.ltb_lt; exact E]|].
  right. intros (x & y & H & Hx). injection H as <- <-. apply N.ltb_lt in Hx. congruence.
Qed.
Lemma is_unary_ok : forall prev s hn, (has_notation c s Prefix -> hn = true -> forall p, prev = Some p -> begins_ascii p \/ ends_operand c parse p) ->
  exists b, is_unary c parse prev s hn = Ok b.
Proof.
  intros prev s hn H. unfold is_unary. destruct (get_unary c s) as [op|] eqn:Ho; [|eauto]. destruct (uf_notation op) eqn:En; [|eauto]. destruct hn; [|simpl; eauto]. simpl.
  destruct prev as [p|]; [|eauto]. destruct (is_close_symbol c p) eqn:E1; [eauto|]. destruct (is_value_name c parse p) eqn:E2; [eauto|].
  destruct (H (ex_intro _ op (conj Ho En)) eq_refl p eq_refl) as [(ch & t & -> & Hc)|X]; [|apply ends_spec in X; rewrite E1, E2 in X; discriminate].
  simpl. unfold is_ascii. apply N.ltb_lt in Hc. rewrite Hc. simpl. destruct (_ && _); eauto.
Qed.
Lemma is_unary_cut : forall prev s p, has_notation c s Prefix -> prev = Some p -> ~ begins_ascii p -> ~ ends_operand c parse p -> is_unary c parse prev s true = Panic.
Proof.
  intros prev s p (op & Ho & En) -> Hb He. unfold is_unary. rewrite Ho, En. cbn [negb]. rewrite <- ends_spec in He. destruct (is_close_symbol c p); [exfalso; apply He; reflexivity|].
  destruct (is_value_name c parse p); [exfalso; apply He; reflexivity|]. destruct (first_byte_cases p) as [(ch & t & -> & Hf)|Hf]; [|rewrite Hf; reflexivity].
  exfalso. apply Hb. exists ch, t. split; [reflexivity|]. simpl in Hf. unfold is_ascii in Hf. destruct (ch <? 128)%N eqn:E; [apply N.ltb_lt; exact E|discriminate].
Qed.
Lemma is_unary_panic : forall prev s hn, is_unary c parse prev s hn <> Err InvalidExpression /\ forall k, is_unary c parse prev s hn <> Err k.
Proof.
  intros prev s hn. assert (A : forall k, is_unary c parse prev s hn <> Err k); [|split; [apply A|exact A]]. intros k. unfold is_unary.
  destruct (get_unary c s) as [op|]; [|discriminate]. destruct (uf_notation op); [|discriminate]. destruct (negb hn); [discriminate|].
  destruct prev as [p|]; [|discriminate]. destruct (is_close_symbol c p); [discriminate|]. destruct (is_value_name c parse p); [discriminate|].
  destruct (first_byte_cases p) as [(ch & t & -> & ->)| ->]; [|discriminate]. cbn [rbind]. destruct (_ && _); discriminate.
Qed.

(** Grouping symbols. *)
Lemma group_symbol : forall ch, match get_group_symbol (cfg c) ch with
  | Some (o, _) => exists g, o = grouping_open g /\ (ch = grouping_open g \/ ch = grouping_close g)
  | None => forall g, ch <> grouping_open g /\ ch <> grouping_close g end.
Proof.
  intros ch. unfold get_group_symbol, grouping_new, char_eqb.
  destruct (ch =? 40)%N eqn:E1; [apply N.eqb_eq in E1; exists Parenthesis; auto|]. destruct (ch =? 41)%N eqn:E2; [apply N.eqb_eq in E2; exists Parenthesis; auto|].
  destruct (ch =? 91)%N eqn:E3; [apply N.eqb_eq in E3; exists Bracket; auto|]. destruct (ch =? 93)%N eqn:E4; [apply N.eqb_eq in E4; exists Bracket; auto|].
  destruct (ch =? 123)%N eqn:E5; [apply N.eqb_eq in E5; exists Brace; auto|]. destruct (ch =? 125)%N eqn:E6; [apply N.eqb_eq in E6; exists Brace; auto|].
  simpl. apply N.eqb_neq in E1, E2, E3, E4, E5, E6. intros [| |]; split; assumption.
Qed.
Lemma symbol_len : forall g, byte_len [grouping_open g] = 1%nat /\ byte_len [grouping_close g] = 1%nat.
Proof. intros [| |]; split; reflexivity. Qed.
Lemma open_close : forall g g', grouping_open g <> grouping_close g'.
Proof. intros [| |] [| |]; discriminate. Qed.
Lemma open_inj : forall g g', grouping_open g = grouping_open g' -> g = g'.
Proof. intros [| |] [| |] H; try reflexivity; discriminate. Qed.
Lemma symbol_of_open : forall g, get_group_symbol (cfg c) (grouping_open g) = Some (grouping_open g, grouping_close g).
Proof. intros [| |]; reflexivity. Qed.
Lemma symbol_of_close : forall g, get_group_symbol (cfg c) (grouping_close g) = Some (grouping_open g, grouping_close g).
Proof. intros [| |]; reflexivity. Qed.
Lemma utf8_nonempty : forall ch, (1 <= List.length (utf8_char ch))%nat.
Proof. intros ch. unfold utf8_char. destruct (_ <? _)%N; [simpl; lia|]. destruct (_ <? _)%N; [simpl; lia|]. destruct (_ <? _)%N; simpl; lia. Qed.
Lemma byte_len_one : forall s, byte_len s = 1%nat -> exists ch, s = [ch] /\ (ch < 128)%N.
Proof.
  intros [|x [|y s]] H; unfold byte_len, utf8 in H; simpl in H.
  - discriminate.
  - rewrite app_nil_r in H. exists x. split; [reflexivity|]. unfold utf8_char in H. destruct (x <? 128)%N eqn:E; [apply N.ltb_lt; exact E|].
    destruct (x <? 2048)%N; [discriminate H|]. destruct (x <? 65536)%N; discriminate H.
  - rewrite !app_length in H. pose proof (utf8_nonempty x). pose proof (utf8_nonempty y). lia.
Qed.

Definition sat (o : option (token V)) (P : token V -> Prop) : Prop := match o with Some t => P t | None => True end.
Lemma group_part : forall s, parse s = None -> nameless c parse s -> s <> lit "," ->
  forall prev last o, s <> lit " " ->
  (match (if Nat.eqb (byte_len s) 1 then match s with ch :: _ => option_map (fun p => (ch, fst p)) (get_group_symbol (cfg c) ch) | [] => None end else None) with
   | Some (ch, open) => Ok (Some (if char_eqb ch open then TOpen ch else TClose ch))
   | None => Ok (Some (TUnknown s)) end) = Ok o -> exists t, o = Some t /\ stands_for c parse prev s last t.
Proof.
  intros s Hp Hn Hc prev last o Hs H. destruct (Nat.eqb (byte_len s) 1) eqn:El.
  - apply Nat.eqb_eq in El. destruct (byte_len_one s El) as (ch & -> & _). pose proof (group_symbol ch) as G. destruct (get_group_symbol (cfg c) ch) as [[op cl]|]; simpl in H.
    + destruct G as (g & -> & [-> | ->]).
      * unfold char_eqb in H. rewrite N.eqb_refl in H. injection H as <-. eexists. split; [reflexivity|]. eapply S_open; [exact Hn|reflexivity].
      * replace (char_eqb (grouping_close g) (grouping_open g)) with false in H by (destruct g; reflexivity). injection H as <-. eexists. split; [reflexivity|].
        eapply S_close; [exact Hn|reflexivity].
    + injection H as <-. eexists. split; [reflexivity|]. apply S_unknown; try assumption. intros g. destruct (G g). split; congruence.
  - injection H as <-. eexists. split; [reflexivity|]. apply S_unknown; try assumption. intros g. destruct (symbol_len g) as [L1 L2].
    split; intros ->; [rewrite L1 in El|rewrite L2 in El]; discriminate.
Qed.

Lemma classify_spec : forall prev s hn o, parse s = None -> classify c parse prev s hn = Ok o ->
  match o with Some t => stands_for c parse prev s (hn = false) t | None => s = lit " " /\ nameless c parse s end.
Proof.
  intros prev s hn o Hp H. unfold classify in H. unfold is_variable in H. destruct (is_some (get_variable c s)) eqn:E1.
  { apply some_spec in E1. injection H as <-. apply S_variable; assumption. }
  apply some_false in E1. unfold is_constant in H. destruct (is_some (get_constant c s)) eqn:E2.
  { apply some_spec in E2. injection H as <-. apply S_constant; try assumption. intros X. apply X. exact E1. }
  apply some_false in E2. unfold is_function_name in H. destruct (is_some (get_function c s)) eqn:E3.
  { apply some_spec in E3. injection H as <-. apply S_function; try assumption; intros X; apply X; assumption. }
  apply some_false in E3. assert (Oo : operator_only c parse s).
  { unfold operator_only, variable, constant, function. rewrite E1, E2, E3. repeat split; try assumption; intros X; apply X; reflexivity. }
  unfold is_binary_function, is_unary_function in H. destruct (is_some (get_binary c s) || is_some (get_unary c s)) eqn:E4.
  { apply orb_true_iff in E4. rewrite !some_spec in E4. destruct (is_unary c parse prev s hn) as [u|k|] eqn:Eu; cbn [rbind] in H; try discriminate.
    pose proof (is_unary_spec _ _ _ _ Eu) as U. destruct u.
    - injection H as <-. apply S_unary; [exact Oo|]. apply U. reflexivity.
    - destruct (negb (is_some prev) || negb hn) eqn:Ex; [discriminate|]. injection H as <-. apply orb_false_iff in Ex. destruct Ex as [X1 X2]. apply negb_false_iff in X1, X2.
      apply S_binary; [exact Oo|unfold unary, binary; tauto| | |].
      + intros X. apply U in X. discriminate.
      + apply some_spec. exact X1.
      + intros X. congruence. }
  apply orb_false_iff in E4. rewrite !some_false in E4. destruct E4 as [E4 E5].
  assert (Nn : nameless c parse s). { split; [exact Oo|]. unfold unary, binary. rewrite E4, E5. split; intros X; apply X; reflexivity. }
  destruct (str_eqb s (lit ",")) eqn:E6; [apply str_eqb_eq in E6; injection H as <-; apply S_comma; assumption|].
  destruct (str_eqb s (lit " ")) eqn:E7; [apply str_eqb_eq in E7; injection H as <-; auto|].
  assert (N6 : s <> lit ",") by (intros X; subst s; discriminate). assert (N7 : s <> lit " ") by (intros X; subst s; discriminate).
  destruct (group_part s Hp Nn N6 prev (hn = false) o N7 H) as (t & -> & Ht). exact Ht.
Qed.

Lemma is_none_neg : forall A (o : option A), ~ (o <> None) -> o = None.
Proof. intros A [x|] H; [exfalso; apply H; discriminate|reflexivity]. Qed.
Ltac nones H := repeat match type of H with _ /\ _ => let x := fresh "Q" in destruct H as [x H]; try apply is_none_neg in x end.
Lemma operator_only_eqs : forall s, operator_only c parse s -> parse s = None /\ get_variable c s = None /\ get_constant c s = None /\ get_function c s = None.
Proof. intros s (H1 & H2 & H3 & H4). repeat split; try assumption; apply is_none_neg; assumption. Qed.

Lemma classify_complete : forall prev s hn t, ~ cuts c parse prev s (hn = false) -> parse s = None ->
  stands_for c parse prev s (hn = false) t -> classify c parse prev s hn = Ok (Some t).
Proof.
  intros prev s hn t Hasc Hp H.
  assert (OP : operator_only c parse s -> forall b, unary c s \/ binary c s -> (b = true <-> unary_here c parse prev s (hn = false)) ->
    classify c parse prev s hn = if b then Ok (Some (TUnary s)) else if negb (is_some prev) || negb hn then Err InvalidExpression else Ok (Some (TBinary s))).
  { intros Ho b Hub Hb. pose proof Ho as Ho'. unfold classify, is_variable, is_constant, is_function_name, is_binary_function, is_unary_function. apply operator_only_eqs in Ho. destruct Ho as (_ & -> & -> & ->). cbn [is_some].
    replace (is_some (get_binary c s) || is_some (get_unary c s)) with true.
    2:{ symmetry. apply orb_true_iff. rewrite !some_spec. unfold unary, binary in Hub. tauto. }
    destruct (is_unary_ok prev s hn) as [u Hu]. { intros Hx Hy p Hz. destruct (ends_dec p) as [X|X]; [auto|]. destruct (ascii_dec p) as [Y|Y]; [auto|].
      exfalso. apply Hasc. split; [exact Ho'|]. split; [exact Hx|]. split; [congruence|]. eauto. } rewrite Hu. cbn [rbind]. pose proof (is_unary_spec _ _ _ _ Hu) as U. replace u with b; [reflexivity|].
    assert (Q : u = true <-> b = true) by tauto. destruct u, b; intuition congruence. }
  inversion H as [v Hv|H1 H2|H1 H2 H3|H1 H2 H3 H4|H1 H2|H1 H2 H3 H4 H5|H1 H2|g H1 H2|g H1 H2|H1 H2 H3 H4]; subst;
    [| | | |rewrite (OP H1 true)|rewrite (OP H1 false H2)| | | |];
    try unfold classify, is_variable, is_constant, is_function_name, is_binary_function, is_unary_function.
  - congruence.
  - apply some_spec in H2. rewrite H2. reflexivity.
  - apply is_none_neg in H2. apply some_spec in H3. rewrite H2, H3. reflexivity.
  - apply is_none_neg in H2, H3. apply some_spec in H4. rewrite H2, H3, H4. reflexivity.
  - reflexivity.
  - left. destruct H2 as [[(f & Hf & _) _]|[(f & Hf & _) _]]; unfold unary; congruence.
  - tauto.
  - apply some_spec in H4. rewrite H4. destruct hn; [reflexivity|]. exfalso. apply H5. reflexivity.
  - split; [discriminate|tauto].
  - destruct H1 as (Ho & Hu & Hb). apply operator_only_eqs in Ho. apply is_none_neg in Hu, Hb. destruct Ho as (_ & -> & -> & ->). rewrite Hu, Hb. reflexivity.
  - destruct H1 as (Ho & Hu & Hb). apply operator_only_eqs in Ho. apply is_none_neg in Hu, Hb. destruct Ho as (_ & -> & -> & ->). rewrite Hu, Hb. cbn [is_some orb].
    destruct (symbol_len g) as [L1 _]. rewrite L1. cbn [Nat.eqb]. rewrite symbol_of_open. cbn [option_map fst]. destruct g; reflexivity.
  - destruct H1 as (Ho & Hu & Hb). apply operator_only_eqs in Ho. apply is_none_neg in Hu, Hb. destruct Ho as (_ & -> & -> & ->). rewrite Hu, Hb. cbn [is_some orb].
    destruct (symbol_len g) as [_ L1]. rewrite L1. cbn [Nat.eqb]. rewrite symbol_of_close. cbn [option_map fst]. destruct g; reflexivity.
  - destruct H1 as (Ho & Hu & Hb). apply operator_only_eqs in Ho. apply is_none_neg in Hu, Hb. destruct Ho as (_ & -> & -> & ->). rewrite Hu, Hb. cbn [is_some orb].
    destruct (str_eqb s (lit ",")) eqn:E6; [apply str_eqb_eq in E6; contradiction|]. destruct (str_eqb s (lit " ")) eqn:E7; [apply str_eqb_eq in E7; contradiction|].
    destruct (Nat.eqb (byte_len s) 1) eqn:El; [|reflexivity]. apply Nat.eqb_eq in El. destruct (byte_len_one s El) as (ch & -> & _).
    pose proof (group_symbol ch) as G. destruct (get_group_symbol (cfg c) ch) as [[op cl]|]; [|reflexivity]. exfalso. destruct G as (g & _ & [-> | ->]); destruct (H4 g); congruence.
Qed.

Lemma last_spec : forall (rest : list str), negb (Nat.eqb (List.length rest) 0) = false <-> rest = [].
Proof. intros [|x rest]; simpl; split; congruence. Qed.
Lemma unary_here_last : forall prev s P Q, (P <-> Q) -> (unary_here c parse prev s P <-> unary_here c parse prev s Q).
Proof. intros prev s P Q H. unfold unary_here. tauto. Qed.
Lemma stands_last : forall prev s P Q t, (P <-> Q) -> stands_for c parse prev s P t -> stands_for c parse prev s Q t.
Proof.
  intros prev s P Q t H S. pose proof (unary_here_last prev s P Q H) as U. destruct S; try (econstructor; eassumption).
  - apply S_unary; tauto.
  - apply S_binary; tauto.
Qed.

Lemma cuts_last : forall prev s P Q, (P <-> Q) -> (cuts c parse prev s P <-> cuts c parse prev s Q).
Proof. intros prev s P Q H. unfold cuts. tauto. Qed.
(** Panics and errors. *)
Lemma classify_panic : forall prev s hn, parse s = None -> (classify c parse prev s hn = Panic <-> cuts c parse prev s (hn = false)).
Proof.
  intros prev s hn Hp. split.
  - intros H. unfold classify in H. destruct (is_variable c s) eqn:E1; [discriminate|]. destruct (is_constant c s) eqn:E2; [discriminate|]. destruct (is_function_name c s) eqn:E3; [discriminate|].
    unfold is_variable in E1. unfold is_constant in E2. unfold is_function_name in E3. apply some_false in E1, E2, E3.
    destruct (is_binary_function c s || is_unary_function c s).
    + destruct (is_unary c parse prev s hn) as [u|k|] eqn:Eu; cbn [rbind] in H.
      * destruct u; [discriminate|]. destruct (_ || _); discriminate.
      * discriminate.
      * split; [unfold operator_only, variable, constant, function; rewrite E1, E2, E3; tauto|].
        assert (X : has_notation c s Prefix /\ hn = true). { unfold is_unary in Eu. destruct (get_unary c s) as [op|] eqn:Ho; [|discriminate]. destruct (uf_notation op) eqn:En; [|discriminate].
          destruct hn; [|discriminate]. split; [exists op; auto|reflexivity]. }
        destruct X as [X1 ->]. split; [exact X1|]. split; [discriminate|]. destruct prev as [p|]; [|destruct (is_unary_ok None s true) as [b Hb]; [discriminate|congruence]]. exists p. split; [reflexivity|]. split.
        -- intros He. destruct (is_unary_ok (Some p) s true) as [b Hb]; [intros _ _ q Hq; injection Hq as <-; right; exact He|congruence].
        -- intros He. destruct (is_unary_ok (Some p) s true) as [b Hb]; [intros _ _ q Hq; injection Hq as <-; left; exact He|congruence].
    + destruct (str_eqb s (lit ",")); [discriminate|]. destruct (str_eqb s (lit " ")); [discriminate|].
      match type of H with (match ?x with _ => _ end) = _ => destruct x as [[ch op]|] end; discriminate.
  - intros (Ho & Hx & Hl & p & Hq & He & Hb). destruct hn; [|exfalso; apply Hl; reflexivity]. unfold classify, is_variable, is_constant, is_function_name. apply operator_only_eqs in Ho.
    destruct Ho as (_ & -> & -> & ->). cbn [is_some]. rewrite (is_unary_cut prev s p Hx Hq Hb He). destruct Hx as (f & Hf & _). unfold is_unary_function. rewrite Hf. cbn [is_some]. rewrite orb_true_r. reflexivity.
Qed.
Lemma loop_sound : forall n raw prev ts, (List.length raw <= n)%nat -> tokenize_loop c parse prev raw = Ok ts -> stand_for c parse prev raw ts.
Proof.
  induction n as [|n IH]; intros raw prev ts Hn H.
  { destruct raw; [|simpl in Hn; lia]. injection H as <-. constructor. }
  destruct raw as [|s rest]; [injection H as <-; constructor|].
  simpl in Hn. cbn [tokenize_loop] in H. destruct (parse s) as [v|] eqn:Ev.
  - assert (NC : forall P, ~ cuts c parse prev s P) by (intros P (X & _); destruct X as (X & _); congruence). destruct rest as [|im rest'].
    + injection H as <-. apply SS_word; [apply S_number; exact Ev|apply NC| |constructor]. intros (_ & _ & ws' & X). discriminate.
    + destruct (complex_number (cfg c) && str_eqb im (lit "i")) eqn:Ec.
      * apply andb_true_iff in Ec. destruct Ec as [Ec Ei]. apply str_eqb_eq in Ei. subst im. destruct (parse (s ++ lit "i")) as [v'|] eqn:Ev'; [|discriminate].
        destruct (tokenize_loop c parse (Some (lit "i")) rest') as [ts'|k|] eqn:El; try discriminate. injection H as <-.
        apply SS_complex; try assumption; [congruence|]. apply IH; [simpl in Hn; lia|exact El].
      * destruct (tokenize_loop c parse (Some s) (im :: rest')) as [ts'|k|] eqn:El; try discriminate. injection H as <-.
        apply SS_word; [apply S_number; exact Ev|apply NC| |apply IH; [lia|exact El]]. intros (X1 & _ & ws' & X). injection X as -> _. rewrite X1, str_eqb_refl in Ec. discriminate.
  - destruct (classify c parse prev s (negb (Nat.eqb (List.length rest) 0))) as [o|k|] eqn:Ec; try discriminate. cbn [rbind] in H.
    destruct (tokenize_loop c parse (Some s) rest) as [ts'|k|] eqn:El; try discriminate. injection H as <-. pose proof (classify_spec _ _ _ _ Ev Ec) as C.
    destruct o as [t|].
    + apply SS_word; [|rewrite cuts_last; [|symmetry; apply last_spec]; intros X; rewrite <- (classify_panic _ _ _ Ev) in X; congruence|intros (_ & X & _); congruence|apply IH; [lia|exact El]].
      eapply stands_last; [apply last_spec|exact C].
    + destruct C as [-> C]. apply SS_space; [exact C|]. apply IH; [lia|exact El].
Qed.
Lemma loop_complete : forall prev raw ts, stand_for c parse prev raw ts -> tokenize_loop c parse prev raw = Ok ts.
Proof.
  induction 1 as [prev|prev ws ts Hn _ IH|prev s ws t ts Ht Hk Hc _ IH|prev s ws v ts Hc Hp Hv _ IH].
  - reflexivity.
  - cbn [tokenize_loop]. destruct Hn as (Ho & Hu & Hb). apply operator_only_eqs in Ho. apply is_none_neg in Hu, Hb. destruct Ho as (Q1 & Q2 & Q3 & Q4). rewrite Q1.
    unfold classify, is_variable, is_constant, is_function_name, is_binary_function, is_unary_function. rewrite Q2, Q3, Q4, Hu, Hb. cbn [is_some orb]. replace (str_eqb (lit " ") (lit ",")) with false by reflexivity. rewrite str_eqb_refl. cbn [rbind]. rewrite IH. reflexivity.
  - cbn [tokenize_loop]. destruct (parse s) as [v|] eqn:Ev.
    + assert (t = TNumber v). { inversion Ht as [v' Hv|H3 H4|H3 H4 H5|H3 H4 H5 H6|H3 H4|H3 H4 H5 H6 H7|H3 H4|g H3 H4|g H3 H4|H3 H4 H5 H6]; subst; try congruence; unfold nameless, operator_only in H3; try destruct H3; try tauto; try congruence; try destruct H as (X & _); congruence. }
      subst t. destruct ws as [|im ws']; [simpl in IH; injection IH as <-; reflexivity|]. destruct (complex_number (cfg c) && str_eqb im (lit "i")) eqn:Ei.
      * exfalso. apply andb_true_iff in Ei. destruct Ei as [E1 E2]. apply str_eqb_eq in E2. subst im. apply Hc. split; [exact E1|]. split; [congruence|]. eauto.
      * rewrite IH. reflexivity.
    + rewrite (classify_complete prev s _ t); [cbn [rbind]; rewrite IH; reflexivity| |exact Ev|eapply stands_last; [|exact Ht]; symmetry; apply last_spec].
      rewrite cuts_last; [exact Hk|apply last_spec].
  - cbn [tokenize_loop]. destruct (parse s) as [v0|] eqn:Ev; [|congruence].
    rewrite Hc, str_eqb_refl. cbn [andb]. rewrite Hv, IH. reflexivity.
Qed.

Lemma classify_err : forall prev s hn k, classify c parse prev s hn = Err k -> k = InvalidExpression /\ (unary c s \/ binary c s) /\ (prev = None \/ hn = false).
Proof.
  intros prev s hn k H. unfold classify in H. destruct (is_variable c s); [discriminate|]. destruct (is_constant c s); [discriminate|]. destruct (is_function_name c s); [discriminate|].
  destruct (is_binary_function c s || is_unary_function c s) eqn:Eo.
  - destruct (is_unary c parse prev s hn) as [u|k'|] eqn:Eu; cbn [rbind] in H.
    + destruct u; [discriminate|]. destruct (negb (is_some prev) || negb hn) eqn:E; [|discriminate]. injection H as <-. split; [reflexivity|]. split.
      * apply orb_true_iff in Eo. unfold is_binary_function, is_unary_function in Eo. rewrite !some_spec in Eo. unfold unary, binary. tauto.
      * apply orb_true_iff in E. rewrite !negb_true_iff, some_false in E. exact E.
    + destruct (is_unary_panic prev s hn) as [_ X]. destruct (X k'). exact Eu.
    + discriminate.
  - destruct (str_eqb s (lit ",")); [discriminate|]. destruct (str_eqb s (lit " ")); [discriminate|].
    match type of H with (match ?x with _ => _ end) = _ => destruct x as [[ch op]|] end; discriminate.
Qed.
(** [adjacent a b ws]: [a] and [b] are neighbours in [ws]. *)
Definition adjacent (a b : str) (ws : list str) : Prop := exists x y, ws = x ++ a :: b :: y.
Definition with_prev (prev : option str) (raw : list str) : list str := match prev with Some p => p :: raw | None => raw end.
Lemma loop_panic : forall n raw prev, (List.length raw <= n)%nat -> tokenize_loop c parse prev raw = Panic ->
  exists x p s q y, with_prev prev raw = x ++ p :: s :: q :: y /\ operator_only c parse s /\ has_notation c s Prefix /\ ~ ends_operand c parse p /\ ~ begins_ascii p.
Proof.
  induction n as [|n IH]; intros raw prev Hn H; [destruct raw; [discriminate|simpl in Hn; lia]|]. destruct raw as [|s rest]; [discriminate|]. simpl in Hn.
  cbn [tokenize_loop] in H.
  assert (R : forall a rest0, (List.length rest0 <= n)%nat -> (exists b, s :: rest = b ++ a :: rest0) -> tokenize_loop c parse (Some a) rest0 = Panic ->
    exists x p s0 q y, with_prev prev (s :: rest) = x ++ p :: s0 :: q :: y /\ operator_only c parse s0 /\ has_notation c s0 Prefix /\ ~ ends_operand c parse p /\ ~ begins_ascii p).
  { intros a rest0 Hl (b & ->) X. destruct (IH rest0 (Some a) Hl X) as (x & p & s0 & q & y & He & R). cbn [with_prev] in He. rewrite He.
    exists (with_prev prev b ++ x), p, s0, q, y. split; [|exact R]. destruct prev; simpl; rewrite <- app_assoc; reflexivity. }
  destruct (parse s) as [v|] eqn:Ev.
  - destruct rest as [|im rest']; [discriminate|]. destruct (complex_number (cfg c) && str_eqb im (lit "i")) eqn:E.
    + apply andb_true_iff in E. destruct E as [_ E]. apply str_eqb_eq in E. subst im. destruct (parse (s ++ lit "i")); [|discriminate].
      destruct (tokenize_loop c parse (Some (lit "i")) rest') eqn:El; try discriminate. simpl in Hn. apply (R (lit "i") rest'); [lia|exists [s]; reflexivity|exact El].
    + destruct (tokenize_loop c parse (Some s) (im :: rest')) eqn:El; try discriminate. apply (R s (im :: rest')); [lia|exists []; reflexivity|exact El].
  - destruct (classify c parse prev s (negb (Nat.eqb (List.length rest) 0))) as [o|k|] eqn:Ec; cbn [rbind] in H; try discriminate.
    + destruct (tokenize_loop c parse (Some s) rest) eqn:El; try discriminate. apply (R s rest); [lia|exists []; reflexivity|exact El].
    + apply (classify_panic _ _ _ Ev) in Ec. destruct Ec as (Q1 & Q2 & Q3 & p & -> & Q4 & Q5). destruct rest as [|q y]; [exfalso; apply Q3; reflexivity|].
      exists [], p, s, q, y. split; [reflexivity|]. auto.
Qed.
Lemma loop_err : forall n raw prev k, (List.length raw <= n)%nat -> tokenize_loop c parse prev raw = Err k ->
  (k = InvalidExpression /\ exists s, (unary c s \/ binary c s) /\ ((prev = None /\ exists rest, raw = s :: rest) \/ exists before, raw = before ++ [s])) \/
  (k = InvalidInput /\ complex_number (cfg c) = true /\ exists s, adjacent s (lit "i") raw /\ parse s <> None /\ parse (s ++ lit "i") = None).
Proof.
  assert (K : forall a p s raw, adjacent p s raw -> adjacent p s (a :: raw)). { intros a p s raw (x & y & ->). exists (a :: x), y. reflexivity. }
  induction n as [|n IH]; intros raw prev k Hn H; [destruct raw; [discriminate|simpl in Hn; lia]|]. destruct raw as [|s rest]; [discriminate|]. simpl in Hn.
  cbn [tokenize_loop] in H.
  assert (R : forall p rest0 a, (List.length rest0 <= n)%nat -> (forall q, a ++ rest0 = q -> s :: rest = q) -> tokenize_loop c parse (Some p) rest0 = Err k ->
     (k = InvalidExpression /\ exists s0, (unary c s0 \/ binary c s0) /\ ((prev = None /\ exists rest', s :: rest = s0 :: rest') \/ exists before, s :: rest = before ++ [s0])) \/
     (k = InvalidInput /\ complex_number (cfg c) = true /\ exists s0, adjacent s0 (lit "i") (s :: rest) /\ parse s0 <> None /\ parse (s0 ++ lit "i") = None)).
  { intros p rest0 a Hl Ha X. specialize (Ha _ eq_refl). rewrite Ha. destruct (IH rest0 (Some p) k Hl X) as [(-> & s0 & Hs & [[Hq _]|(before & ->)])|(-> & Hc & s0 & (x & y & ->) & Hs)].
    - discriminate.
    - left. split; [reflexivity|]. exists s0. split; [exact Hs|]. right. exists (a ++ before). rewrite app_assoc. reflexivity.
    - right. split; [reflexivity|]. split; [exact Hc|]. exists s0. split; [|exact Hs]. exists (a ++ x), y. rewrite <- app_assoc. reflexivity. }
  destruct (parse s) as [v|] eqn:Ev.
  - destruct rest as [|im rest']; [discriminate|]. destruct (complex_number (cfg c) && str_eqb im (lit "i")) eqn:E.
    + apply andb_true_iff in E. destruct E as [Ec E]. apply str_eqb_eq in E. subst im. destruct (parse (s ++ lit "i")) eqn:Ei.
      * destruct (tokenize_loop c parse (Some (lit "i")) rest') eqn:El; try discriminate. injection H as <-. simpl in Hn. apply (R (lit "i") rest' [s; lit "i"]); [lia| |exact El]. intros q <-. reflexivity.
      * injection H as <-. right. split; [reflexivity|]. split; [exact Ec|]. exists s. split; [exists [], rest'; reflexivity|]. split; [congruence|exact Ei].
    + destruct (tokenize_loop c parse (Some s) (im :: rest')) eqn:El; try discriminate. injection H as <-. apply (R s (im :: rest') [s]); [lia| |exact El]. intros q <-. reflexivity.
  - destruct (classify c parse prev s (negb (Nat.eqb (List.length rest) 0))) as [o|k'|] eqn:Ec; cbn [rbind] in H; try discriminate.
    + destruct (tokenize_loop c parse (Some s) rest) eqn:El; try discriminate. injection H as <-. apply (R s rest [s]); [lia| |exact El]. intros q <-. reflexivity.
    + injection H as <-. destruct (classify_err _ _ _ _ Ec) as (-> & Hs & Hx). left. split; [reflexivity|]. exists s. split; [exact Hs|]. destruct Hx as [Hx|Hx]; [left; eauto|right].
      apply last_spec in Hx. subst rest. exists []. reflexivity.
Qed.
End Tok.
