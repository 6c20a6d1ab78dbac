(** * More about the tokenizer: positions, splitters, deciders for the examples *)
From Coq Require Import List NArith ZArith Bool Arith Lia String.
From Verif Require Import ModelBase ModelContext ModelEvaluator ModelText ModelStr ModelSplit ModelTokenizer SpecExpr SpecLex SpecTokenizer
  ProofText ProofSplit ProofLex ProofTok ProofExprText.
Import ListNotations.

Definition last_of {A} (prev : option A) (l : list A) : option A := match rev l with x :: _ => Some x | [] => prev end.
Lemma last_of_cons : forall A (p : option A) x l, last_of p (x :: l) = last_of (Some x) l.
Proof. intros A p x l. unfold last_of. simpl. destruct (rev l); reflexivity. Qed.

Section Pos.
Context {V W : Type}.
Variable c : ctx V W.
Variable parse : str -> option V.

(** One token for each word. *)
Lemma positions : complex_number (cfg c) = false -> forall prev ws ts, stand_for c parse prev ws ts -> ~ In (lit " ") ws ->
  List.length ts = List.length ws /\
  forall before s after, ws = before ++ s :: after -> exists t, nth_error ts (List.length before) = Some t /\ stands_for c parse (last_of prev before) s (after = []) t /\
    ~ cuts c parse (last_of prev before) s (after = []).
Proof.
  intros Hc prev ws ts H. induction H as [prev|prev ws ts Hn _ IH|prev s ws t ts Ht Hk Hi _ IH|prev s ws v ts Hx _ _ _ IH]; intros Hs.
  - split; [reflexivity|]. intros [|x before] s after E; discriminate.
  - exfalso. apply Hs. left. reflexivity.
  - destruct IH as [IH1 IH2]; [intros X; apply Hs; right; exact X|]. split; [simpl; congruence|]. intros [|x before] s0 after E; injection E as -> ->.
    + exists t. auto.
    + destruct (IH2 before s0 after eq_refl) as (t0 & T1 & T2). exists t0. rewrite last_of_cons. auto.
  - congruence.
Qed.

(** What a word stands for is determined. *)
Lemma stands_unary : forall prev s last t, stands_for c parse prev s last t -> operator_only c parse s -> (unary c s \/ binary c s) ->
  (t = TUnary s /\ unary_here c parse prev s last) \/ (t = TBinary s /\ ~ unary_here c parse prev s last).
Proof.
  intros prev s last t H Ho Hub. destruct Ho as (O1 & O2 & O3 & O4). inversion H as [v Hv|H1 H2|H1 H2 H3|H1 H2 H3 H4|H1 H2|H1 H2 H3 H4 H5|H1 H2|g H1 H2|g H1 H2|H1 H2 H3 H4]; subst; try congruence; try contradiction;
    try (destruct H1 as (_ & N1 & N2); destruct Hub; contradiction).
  - left. auto.
  - right. auto.
Qed.
End Pos.

(** ** Splitters *)
Lemma splitters_shipped : forall rules, In rules splitters -> Forall shipped rules.
Proof.
  intros rules H. unfold splitters in H. cbn [In] in H.
  destruct H as [<-|[<-|[<-|[<-|[]]]]]; repeat constructor.
Qed.
Lemma lexes_default : forall s ws, lexes s ws -> split_into_tokens default_splitter s = ws.
Proof. exact lexes_split. Qed.
Lemma written_lexes : forall ws s, Forall a_word ws -> written ws s -> lexes s ws.
Proof. intros ws s Hw H. pose proof (written_split ws s Hw H) as X. rewrite <- X. apply split_lexes. Qed.
Lemma lexes_solid : forall s ws, lexes s ws -> ~ In (lit " ") ws.
Proof.
  intros s ws H X. apply lexes_words in H. rewrite Forall_forall in H. apply H in X. apply word_visible in X. destruct X as [_ X]. inversion X; subst. discriminate.
Qed.
Lemma ascii_words : forall rules s w, Forall shipped rules -> ascii s -> In w (split_into_tokens rules s) -> begins_ascii w.
Proof.
  intros rules s w Hr Ha Hw. destruct (split_honest rules Hr s) as [H1 H2]. rewrite Forall_forall in H1. specialize (H1 w Hw). destruct w as [|ch t]; [congruence|].
  exists ch, t. split; [reflexivity|]. pose proof (sub_forall _ _ _ _ H2 Ha) as F. rewrite Forall_forall in F. apply F. apply in_concat. exists (ch :: t). split; [exact Hw|left; reflexivity].
Qed.
Lemma trim_blank : forall s, trim s = [] <-> blank s.
Proof. exact trim_nil. Qed.
Lemma blank_app : forall a b, blank (a ++ b) <-> blank a /\ blank b.
Proof. intros. unfold blank. apply Forall_app. Qed.

Section Tok3.
Context {V W : Type}.
Variable c : ctx V W.
Variable parse : str -> option V.

Lemma tokenize_same : forall f a b, (blank a <-> blank b) -> f a = f b -> tokenize c parse f a = tokenize c parse f b.
Proof.
  intros f a b Hb Hf. unfold tokenize. rewrite <- !trim_blank in Hb. rewrite Hf. destruct (trim a), (trim b); try reflexivity; exfalso; destruct Hb as [B1 B2]; [discriminate (B1 eq_refl)|discriminate (B2 eq_refl)].
Qed.
Lemma tokenize_not_blank : forall f s, ~ blank s -> tokenize c parse f s = tokenize_loop c parse None (f s).
Proof. intros f s H. unfold tokenize. rewrite <- trim_blank in H. destruct (trim s); [exfalso; apply H; reflexivity|reflexivity]. Qed.
Lemma tokenize_blank : forall f s, blank s -> tokenize c parse f s = Err Empty.
Proof. intros f s H. unfold tokenize. apply trim_blank in H. rewrite H. reflexivity. Qed.
Lemma blank_dec : forall s, blank s \/ ~ blank s.
Proof. intros s. rewrite <- trim_blank. destruct (trim s); [left; reflexivity|right; discriminate]. Qed.
End Tok3.

(** ** Deciders, for examples *)
Section Dec.
Context {V W : Type}.
Variable same : V -> V -> bool.
Hypothesis same_ok : forall x y, same x y = true -> x = y.
Variable c : ctx V W.
Variable parse : str -> option V.
Notation someb := is_some.
Definition opwordb (s : str) : bool :=
  match s with
  | [] => false
  | x :: t => (is_ident_start x && forallb is_ident_char t) || (negb (is_ident_start x) && forallb is_operator_char (x :: t))
  end.
Definition operator_onlyb (s : str) : bool :=
  negb (someb (parse s)) && negb (someb (get_variable c s)) && negb (someb (get_constant c s)) && negb (someb (get_function c s)).
Definition namelessb (s : str) : bool := operator_onlyb s && negb (someb (get_unary c s)) && negb (someb (get_binary c s)).
Definition starts_onlyb (s : str) : bool := match s with ch :: _ => someb (get_unary c [ch]) && negb (someb (get_binary c [ch])) | [] => false end.
Definition loneb (s : str) : bool := match s with [ch] => negb (is_ascii_punctuation ch) | _ => false end.
Definition notationb (s : str) (n : notation) : bool := match get_unary c s with Some f => match uf_notation f, n with Prefix, Prefix | Postfix, Postfix => true | _, _ => false end | None => false end.
Definition spellsb (t : token V) (s : str) : bool :=
  match t with
  | TNumber v => match parse s with Some v' => same v' v | None => false end
  | TVariable x => str_eqb s x && negb (someb (parse x)) && someb (get_variable c x)
  | TConstant x => str_eqb s x && negb (someb (parse x)) && negb (someb (get_variable c x)) && someb (get_constant c x)
  | TFunction x => str_eqb s x && negb (someb (parse x)) && negb (someb (get_variable c x)) && negb (someb (get_constant c x)) && someb (get_function c x)
  | TBinary o => str_eqb s o && operator_onlyb o && opwordb o && negb (notationb o Postfix)
  | TUnary u => str_eqb s u && operator_onlyb u && opwordb u && (negb (notationb u Postfix) || starts_onlyb u)
  | TOpen k | TClose k => str_eqb s [k] && namelessb s
  | TComma => str_eqb s (lit ",") && namelessb s
  | _ => false
  end.
Fixpoint all2 {A B} (p : A -> B -> bool) (l : list A) (m : list B) : bool :=
  match l, m with [], [] => true | x :: l', y :: m' => p x y && all2 p l' m' | _, _ => false end.
Definition signb (e : expr V) (o : str) : bool := match print e with TUnary _ :: _ => negb (starts_onlyb o) && negb (loneb o) | _ => true end.
Fixpoint singleb (e : expr V) : bool :=
  match e with
  | ENum _ | EVar _ | EConst _ => true
  | EGroup _ e => singleb e
  | EPre u e => singleb e && signb e u
  | ECall _ _ args => forallb singleb args
  | EPost e _ => singleb e && match e with EPost _ _ => false | _ => true end
  | EBin o l r => singleb l && singleb r && signb r o
  | EMul l r => singleb l && singleb r
  end.
Definition text_ofb (e : expr V) (s : str) : bool :=
  all2 spellsb (print e) (split_into_tokens default_splitter s) && singleb e && (negb (complex_number (cfg c)) || negb (existsb (str_eqb (lit "i")) (split_into_tokens default_splitter s))).

Lemma opword_sound : forall s, opwordb s = true -> ident_word s \/ operator_word s.
Proof.
  intros [|x t] H; [discriminate|]. unfold opwordb in H. apply orb_true_iff in H. destruct H as [H|H]; apply andb_true_iff in H; destruct H as [H1 H2].
  - left. exists x, t. split; [reflexivity|]. split; [apply letter_spec; exact H1|]. rewrite forallb_forall in H2. apply Forall_forall. intros y Hy. apply ident_spec. apply H2. exact Hy.
  - right. split; [discriminate|]. rewrite forallb_forall in H2. split; [apply Forall_forall; intros y Hy; apply op_spec; apply H2; exact Hy|].
    intros y r E. injection E as <- <-. intros X. apply letter_spec in X. rewrite X in H1. discriminate.
Qed.
Ltac bools := repeat match goal with
  | X : _ && _ = true |- _ => apply andb_true_iff in X; destruct X
  | X : negb _ = true |- _ => apply negb_true_iff in X
  | X : is_some _ = true |- _ => apply some_spec in X
  | X : is_some _ = false |- _ => apply some_false in X
  | X : str_eqb _ _ = true |- _ => apply str_eqb_eq in X
  end.
Lemma only_sound : forall s, operator_onlyb s = true -> operator_only c parse s.
Proof. intros s H. unfold operator_onlyb in H. bools. unfold operator_only, variable, constant, function. rewrite H2, H1, H0. tauto. Qed.
Lemma nameless_sound : forall s, namelessb s = true -> nameless c parse s.
Proof. intros s H. unfold namelessb in H. bools. split; [apply only_sound; assumption|]. unfold unary, binary. rewrite H1, H0. tauto. Qed.
Lemma starts_sound : forall s, starts_onlyb s = true <-> starts_unary_only c s.
Proof.
  intros [|ch t]; [split; [discriminate|intros (x & y & E & _); discriminate]|]. cbn [starts_onlyb]. apply starts_spec.
Qed.
Lemma lone_sound : forall s, loneb s = true <-> lone_non_punctuation s.
Proof.
  intros s. unfold loneb, lone_non_punctuation. destruct s as [|x [|y s]]; try (split; [discriminate|intros (ch & E & _); discriminate]).
  rewrite negb_true_iff. split; [intros H; exists x; auto|]. intros (ch & E & H). injection E as <-. exact H.
Qed.
Lemma notation_sound : forall s n, notationb s n = true <-> has_notation c s n.
Proof.
  intros s n. unfold notationb, has_notation. destruct (get_unary c s) as [f|]; [|split; [discriminate|intros (f & E & _); discriminate]]. split.
  - intros H. exists f. split; [reflexivity|]. destruct (uf_notation f), n; congruence.
  - intros (g & E & <-). injection E as <-. destruct (uf_notation f); reflexivity.
Qed.
Lemma sign_sound : forall o, starts_onlyb o = false -> loneb o = false -> sign_may_follow c o.
Proof. intros o H1 H2. split; intros X; [apply starts_sound in X|apply lone_sound in X]; congruence. Qed.
Lemma spells_sound : forall t s, spellsb t s = true -> spells c parse t s.
Proof.
  intros t s H. destruct t; cbn [spellsb spells] in *; try discriminate.
  - destruct (parse s) as [v'|]; [|discriminate]. apply same_ok in H. subst. reflexivity.
  - bools. unfold variable. auto.
  - bools. unfold variable, constant. rewrite H1. repeat (split; [assumption||tauto|]). assumption.
  - bools. unfold variable, constant, function. rewrite H2, H1. repeat (split; [assumption||tauto|]). assumption.
  - bools. subst. repeat split; try (apply only_sound; assumption); try (apply opword_sound; assumption); try (apply sign_sound; assumption).
    + intros X. apply notation_sound in X. congruence.
  - bools. subst. apply orb_true_iff in H0. split; [reflexivity|]. split; [apply only_sound; assumption|]. split; [apply opword_sound; assumption|].
    intros X. apply notation_sound in X. destruct H0 as [H0|H0]; bools; [congruence|]. apply starts_sound; assumption.
  - bools. split; [assumption|apply nameless_sound; assumption].
  - bools. split; [assumption|apply nameless_sound; assumption].
  - bools. split; [assumption|apply nameless_sound; assumption].
Qed.
Lemma signb_sound : forall e o, signb e o = true -> begins_with_sign e -> sign_may_follow c o.
Proof. intros e o H (u & ts & E). unfold signb in H. rewrite E in H. bools. apply sign_sound; assumption. Qed.
Lemma single_sound : forall e, singleb e = true -> readable c e.
Proof.
  induction e as [v|x|x|g e IH|f g args IH|u e IH|e u IH|o l r IHl IHr|l r IHl IHr] using expr_ind'; cbn [singleb readable]; intros H; auto.
  - induction IH as [|a args Ha _ IHa]; [exact I|]. cbn [forallb] in H. bools. split; [apply Ha; assumption|apply IHa; assumption].
  - bools. split; [auto|apply signb_sound; assumption].
  - bools. split; [auto|]. destruct e; congruence || exact I.
  - bools. split; [auto|split; [auto|apply signb_sound; assumption]].
  - bools. auto.
Qed.
Lemma text_sound : forall e s, text_ofb e s = true -> text_of c parse e s.
Proof.
  intros e s H. unfold text_ofb in H. apply andb_true_iff in H. destruct H as [H H3]. apply andb_true_iff in H. destruct H as [H1 H2].
  exists (split_into_tokens default_splitter s). split; [apply split_lexes|]. split; [|split; [apply single_sound; exact H2|]].
  - revert H1. generalize (print e). generalize (split_into_tokens default_splitter s). intros l m. revert l. induction m as [|x m IH]; intros [|y l] X; try discriminate; constructor.
    + cbn [all2] in X. apply andb_true_iff in X. apply spells_sound. apply X.
    + cbn [all2] in X. apply andb_true_iff in X. apply IH. apply X.
  - intros Hc X. rewrite Hc in H3. cbn [negb orb] in H3. apply negb_true_iff in H3. assert (Y : existsb (str_eqb (lit "i")) (split_into_tokens default_splitter s) = true).
    { apply existsb_exists. exists (lit "i"). split; [exact X|apply str_eqb_refl]. } congruence.
Qed.
End Dec.
