(** * The text of an expression tokenizes to its tokens *)
From Coq Require Import List NArith Bool Arith Lia String.
From Verif Require Import ModelBase ModelContext ModelEvaluator ModelText ModelStr ModelSplit ModelTokenizer SpecExpr SpecLex SpecTokenizer ProofText ProofSplit ProofLex ProofTok.
Import ListNotations.

Section ExprText.
Context {V W : Type}.
Variable c : ctx V W.
Variable parse : str -> option V.
Notation stand := (stand_for c parse).
Notation E := (expr V).

Definition no_i (ws : list str) : Prop := complex_number (cfg c) = true -> ~ In (lit "i") ws.
Lemma no_i_app : forall a b, no_i (a ++ b) -> no_i b.
Proof. intros a b H Hc X. apply (H Hc). apply in_or_app. auto. Qed.

(** Reading the words [ws] after [prev] gives the tokens [ts], whatever follows; [l] is the last of them. *)
Definition seg (prev : option str) (ws : list str) (ts : list (token V)) (l : str) : Prop :=
  forall after ts', no_i (ws ++ after) -> stand (Some l) after ts' -> stand prev (ws ++ after) (ts ++ ts').
Lemma seg_app : forall prev w1 t1 l1 w2 t2 l2, seg prev w1 t1 l1 -> seg (Some l1) w2 t2 l2 -> seg prev (w1 ++ w2) (t1 ++ t2) l2.
Proof.
  intros prev w1 t1 l1 w2 t2 l2 H1 H2 after ts' Hi H. rewrite <- !app_assoc in *. apply H1; [exact Hi|]. apply H2; [eapply no_i_app; exact Hi|exact H].
Qed.
Lemma seg_one : forall prev s t, (forall P, ~ cuts c parse prev s P) -> (forall P : Prop, stands_for c parse prev s P t) -> seg prev [s] [t] s.
Proof.
  intros prev s t Hc Hs after ts' Hi H. simpl in *. apply SS_word; [apply Hs|apply Hc| |exact H].
  intros (X & _ & ws' & ->). apply (Hi X). right. left. reflexivity.
Qed.
(** An operator that is not the last word. *)
Lemma seg_op : forall prev s t w2 t2 l2, w2 <> [] -> (forall P : Prop, ~ P -> ~ cuts c parse prev s P) -> (forall P : Prop, ~ P -> stands_for c parse prev s P t) ->
  parse s = None -> seg (Some s) w2 t2 l2 -> seg prev (s :: w2) (t :: t2) l2.
Proof.
  intros prev s t w2 t2 l2 Hn Hc Hs Hp H2 after ts' Hi H. simpl in *. assert (N : w2 ++ after <> []) by (destruct w2; [congruence|discriminate]).
  apply SS_word; [apply Hs; exact N|apply Hc; exact N|intros (_ & X & _); congruence|].
  apply H2; [|exact H]. exact (no_i_app [s] _ Hi).
Qed.

(** A sign read after [prev] is a sign. *)
Definition opens (prev : option str) : Prop :=
  forall p, prev = Some p -> ~ ends_operand c parse p /\ ~ starts_unary_only c p /\ ~ lone_non_punctuation p /\ begins_ascii p.
(** An operand may end with [l]. *)
Definition done (l : str) : Prop := ends_operand c parse l \/ (starts_unary_only c l /\ begins_ascii l).

Lemma op_word_ascii : forall s, ident_word s \/ operator_word s -> begins_ascii s.
Proof.
  intros s [(x & t & -> & H & _)|(Hne & Ho & _)].
  - exists x, t. split; [reflexivity|]. unfold letter in H. lia.
  - destruct s as [|x t]; [congruence|]. inversion Ho; subst. exists x, t. split; [reflexivity|]. apply op_cases in H1. tauto.
Qed.
Lemma op_word_not_close : forall s g, ident_word s \/ operator_word s -> s <> [grouping_close g].
Proof.
  intros s g [(x & t & -> & H & _)|(Hne & Ho & _)] X.
  - injection X as -> _. unfold letter in H. destruct g; simpl in H; lia.
  - subst s. inversion Ho; subst. destruct g; cbv in H1; repeat (destruct H1 as [H1|H1]; [discriminate|]); exact H1.
Qed.
Lemma opens_op : forall o, operator_only c parse o -> ident_word o \/ operator_word o -> sign_may_follow c o -> opens (Some o).
Proof.
  intros o (H1 & H2 & H3 & H4) Hw [S1 S2] p Hp. injection Hp as <-. split; [|split; [exact S1|split; [exact S2|apply op_word_ascii; exact Hw]]].
  intros [X|[X|[X|(g & X)]]]; try contradiction. apply (op_word_not_close _ _ Hw X).
Qed.
Lemma opens_symbol : forall k, nameless c parse [k] -> (forall g, k <> grouping_close g) -> is_ascii_punctuation k = true -> (k < 128)%N -> opens (Some [k]).
Proof.
  intros k ((H1 & H2 & H3 & H4) & H5 & H6) Hk Hp Ha p E. injection E as <-. repeat split.
  - intros [X|[X|[X|(g & X)]]]; try contradiction. apply (Hk g). congruence.
  - intros (ch & t & X & Hu & _). injection X as <- <-. contradiction.
  - intros (ch & X & Hx). injection X as <-. congruence.
  - exists k, []. auto.
Qed.
Lemma opens_open : forall g, nameless c parse [grouping_open g] -> opens (Some [grouping_open g]).
Proof. intros g H. apply opens_symbol; [exact H|intros g'; apply open_close| |]; destruct g; reflexivity. Qed.
Lemma opens_comma : nameless c parse (lit ",") -> opens (Some (lit ",")).
Proof. intros H. apply opens_symbol; [exact H|intros []; discriminate| |]; reflexivity. Qed.
Lemma opens_none : opens None.
Proof. intros p H. discriminate. Qed.

Lemma nameless_no_cut : forall prev s P, nameless c parse s -> ~ cuts c parse prev s P.
Proof. intros prev s P (_ & Hu & _) (_ & (f & Hf & _) & _). apply Hu. unfold unary. congruence. Qed.
Lemma named_no_cut : forall prev s P, ~ operator_only c parse s -> ~ cuts c parse prev s P.
Proof. intros prev s P H (X & _). contradiction. Qed.

Definition first_plain (ts : list (token V)) : Prop := match ts with TUnary _ :: _ => False | _ => True end.
Lemma first_plain_app : forall a b, first_plain (a ++ b) -> first_plain a.
Proof. intros [|[] a] b H; exact H || exact I. Qed.
Lemma print_nonempty : forall e : E, print e <> [].
Proof.
  induction e as [v|x|x|g e IH|f g args IH|u e IH|e u IH|o l r IHl IHr|l r IHl IHr] using expr_ind'; simpl; try discriminate.
  - intros X. apply app_eq_nil in X. destruct X. discriminate.
  - intros X. apply app_eq_nil in X. destruct X. contradiction.
  - intros X. apply app_eq_nil in X. destruct X. contradiction.
Qed.
Lemma spells_nonempty : forall ts ws, Forall2 (spells c parse) ts ws -> ts <> [] -> ws <> [].
Proof. intros ts ws H. inversion H; subst; congruence. Qed.

Lemma opens_or : forall o e, operator_only c parse o -> ident_word o \/ operator_word o -> (begins_with_sign e -> sign_may_follow c o) -> opens (Some o) \/ first_plain (print e).
Proof.
  intros o e Ho Hw Hs. unfold begins_with_sign in Hs. destruct (print e) as [|t ts]; [right; exact I|]. destruct t; try (right; exact I). left. apply opens_op; try assumption. apply Hs. eauto.
Qed.
Definition reads (e : E) : Prop := forall prev ws, wf c e -> readable c e -> Forall2 (spells c parse) (print e) ws ->
  opens prev \/ first_plain (print e) ->
  exists l, seg prev ws (print e) l /\ done l /\ (is_primary e = true -> (forall e' u, e <> EPost e' u) -> ends_operand c parse l).

Lemma reads_args : forall args, args <> [] -> Forall reads args ->
  (fix all_wf es := match es with [] => True | e :: es' => wf c e /\ all_wf es' end) args ->
  (fix all es := match es with [] => True | e :: es' => readable c e /\ all es' end) args ->
  forall prev ws, Forall2 (spells c parse) (join [TComma] (map print args)) ws -> opens prev ->
  exists l, seg prev ws (join [TComma] (map print args)) l.
Proof.
  induction args as [|a args IH]; intros Hne HR Hw Hd prev ws Hs Ho; [congruence|]. inversion HR as [|? ? Ra Rs]; subst. destruct Hw as [Wa Ws]. destruct Hd as [Da Ds].
  destruct args as [|b args].
  - simpl in *. destruct (Ra prev ws Wa Da Hs (or_introl Ho)) as (l & Hl & _). eauto.
  - remember (b :: args) as rest eqn:Er.
    assert (X : join [TComma] (map print (a :: rest)) = print a ++ [TComma] ++ join [TComma] (map print rest)) by (subst rest; reflexivity).
    rewrite X in *. apply Forall2_app_inv_l in Hs. destruct Hs as (w1 & w2 & S1 & S2 & ->). inversion S2 as [|? x ? w3 Sc S3]; subst. destruct Sc as [-> Sc].
    destruct (Ra prev w1 Wa Da S1 (or_introl Ho)) as (l & Hl & _).
    destruct (IH ltac:(discriminate) Rs Ws Ds (Some (lit ",")) w3 S3 (opens_comma Sc)) as (l2 & Hl2). exists l2.
    eapply seg_app; [exact Hl|]. apply (seg_app _ [lit ","] [TComma] (lit ",")); [|exact Hl2]. apply seg_one; [intros P; apply nameless_no_cut; exact Sc|].
    intros P. apply S_comma; [exact Sc|reflexivity].
Qed.

Lemma reads_all : forall e, reads e.
Proof.
  induction e as [v|x|x|g e IH|f g args IH|u e IH|e u IH|o l r IHl IHr|l r IHl IHr] using expr_ind'; intros prev ws Hw Hd Hs Hp.
  - inversion Hs as [|? s ? ws' Hx Hr]; subst. inversion Hr; subst. simpl in Hx. exists s. assert (En : ends_operand c parse s) by (left; congruence).
    split; [|split; [left; exact En|auto]]. apply seg_one; [|intros P; apply S_number; exact Hx]. intros P. apply named_no_cut. intros (X & _). congruence.
  - inversion Hs as [|? s ? ws' Hx Hr]; subst. inversion Hr; subst. destruct Hx as (-> & H1 & H2). exists x. assert (En : ends_operand c parse x) by (right; left; exact H2).
    split; [|split; [left; exact En|auto]]. apply seg_one; [|intros P; apply S_variable; assumption]. intros P. apply named_no_cut. intros (_ & X & _). contradiction.
  - inversion Hs as [|? s ? ws' Hx Hr]; subst. inversion Hr; subst. destruct Hx as (-> & H1 & H2 & H3). exists x. assert (En : ends_operand c parse x) by (right; right; left; exact H3).
    split; [|split; [left; exact En|auto]]. apply seg_one; [|intros P; apply S_constant; assumption]. intros P. apply named_no_cut. intros (_ & _ & X & _). contradiction.
  - cbn [print] in *. apply Forall2_app_inv_l in Hs. destruct Hs as (w1 & w2 & S1 & S2 & ->). inversion S1 as [|? s ? ws' Hsp1 Hr]; subst; destruct Hsp1 as [-> Sn]. inversion Hr; subst.
    apply Forall2_app_inv_l in S2. destruct S2 as (w3 & w4 & S3 & S4 & ->). inversion S4 as [|? s ? ws' Hsp2 Hr4]; subst; destruct Hsp2 as [-> Sm]. inversion Hr4; subst.
    destruct (IH (Some [grouping_open g]) w3 Hw Hd S3 (or_introl (opens_open g Sn))) as (l & Hl & _). exists [grouping_close g].
    assert (En : ends_operand c parse [grouping_close g]) by (right; right; right; exists g; reflexivity). split; [|split; [left; exact En|auto]].
    eapply seg_app; [|eapply seg_app; [exact Hl|]]; apply seg_one; try (intros P; apply nameless_no_cut; assumption); intros P; [eapply S_open|eapply S_close]; try assumption; reflexivity.
  - cbn [print] in *. destruct Hw as (Hne & _ & Ws). apply Forall2_app_inv_l in Hs. destruct Hs as (w1 & w2 & S1 & S2 & ->).
    inversion S1 as [|? s ? ws' Hsp3 Hr]; subst; destruct Hsp3 as (-> & F1 & F2 & F3 & F4). inversion Hr as [|? s ? ws'' Hsp4 Hr']; subst; destruct Hsp4 as [-> Sn]. inversion Hr'; subst.
    apply Forall2_app_inv_l in S2. destruct S2 as (w3 & w4 & S3 & S4 & ->). inversion S4 as [|? s ? ws' Hsp5 Hr4]; subst; destruct Hsp5 as [-> Sm]. inversion Hr4; subst.
    destruct (reads_args args Hne IH Ws Hd (Some [grouping_open g]) w3 S3 (opens_open g Sn)) as (l & Hl). exists [grouping_close g].
    assert (En : ends_operand c parse [grouping_close g]) by (right; right; right; exists g; reflexivity). split; [|split; [left; exact En|auto]].
    apply (seg_app prev [f; [grouping_open g]] [TFunction f; TOpen (grouping_open g)] [grouping_open g]).
    { apply (seg_app prev [f] [TFunction f] f [[grouping_open g]] [TOpen (grouping_open g)]); apply seg_one.
      - intros P. apply named_no_cut. intros (_ & _ & _ & X). contradiction.
      - intros P. apply S_function; assumption.
      - intros P. apply nameless_no_cut; assumption.
      - intros P. eapply S_open; [assumption|reflexivity]. }
    eapply seg_app; [exact Hl|]. apply seg_one; [intros P; apply nameless_no_cut; assumption|]. intros P. eapply S_close; [assumption|reflexivity].
  - cbn [print] in *. destruct Hw as (We & Hn & Ha). destruct Hp as [Hp|Hp]; [|destruct Hp]. inversion Hs as [|? s ? w2 Hsp6 S2]; subst; destruct Hsp6 as (-> & Ho & Hword & _).
    destruct Hd as [Hd Hpre]. destruct (IH (Some u) w2 We Hd S2 (opens_or u e Ho Hword Hpre)) as (l & Hl & Hdone & Hprim). exists l. split; [|split; [exact Hdone|]].
    + apply seg_op; [eapply spells_nonempty; [exact S2|apply print_nonempty]| | |apply Ho|exact Hl].
      * intros P HP (_ & _ & _ & p & Hq & _ & Hb). apply Hb. apply (Hp p Hq).
      * intros P HP. apply S_unary; [exact Ho|]. right. split; [exact Hn|]. split; [exact HP|]. intros p Hq. destruct (Hp p Hq) as (Q1 & Q2 & Q3 & _). auto.
    + intros Hx _. simpl in Hx. apply Hprim; [destruct e; try discriminate; reflexivity|]. intros e' u' X. subst e. discriminate.
  - cbn [print] in *. destruct Hw as (We & Hn & Hprim). destruct Hd as [De Dp]. apply Forall2_app_inv_l in Hs. destruct Hs as (w1 & w2 & S1 & S2 & ->).
    inversion S2 as [|? s ? ws' Hsp7 Hr]; subst; destruct Hsp7 as (-> & Ho & Hword & Hpost). inversion Hr; subst. specialize (Hpost Hn).
    assert (Hp' : opens prev \/ first_plain (print e)) by (destruct Hp as [Hp|Hp]; [left; exact Hp|right; eapply first_plain_app; exact Hp]).
    destruct (IH prev w1 We De S1 Hp') as (l & Hl & _ & Hend). assert (Hend' : ends_operand c parse l) by (apply Hend; [exact Hprim|intros e' u' X; subst e; exact Dp]).
    exists u. split; [|split; [right; split; [exact Hpost|apply op_word_ascii; exact Hword]|intros _ X; destruct (X e u eq_refl)]].
    eapply seg_app; [exact Hl|]. apply seg_one.
    + intros P (_ & (f & Hf & Hf') & _). destruct Hn as (f2 & Hf2 & Hf2'). congruence.
    + intros P. apply S_unary; [exact Ho|]. left. split; [exact Hn|]. exists l. auto.
  - cbn [print] in *. destruct Hw as (Wl & Wr & Hb & _). destruct Hd as (Dl & Dr & Hsign). apply Forall2_app_inv_l in Hs. destruct Hs as (w1 & w2 & S1 & S2 & ->).
    inversion S2 as [|? s ? w3 Hsp8 S3]; subst; destruct Hsp8 as (-> & Ho & Hword & Hnp).
    assert (Hp' : opens prev \/ first_plain (print l)) by (destruct Hp as [Hp|Hp]; [left; exact Hp|right; eapply first_plain_app; exact Hp]).
    destruct (IHl prev w1 Wl Dl S1 Hp') as (a & Ha & Hda & _). destruct (IHr (Some o) w3 Wr Dr S3 (opens_or o r Ho Hword Hsign)) as (b & Hbs & Hdb & _).
    exists b. split; [|split; [exact Hdb|intros X; discriminate]]. eapply seg_app; [exact Ha|]. simpl.
    apply seg_op; [eapply spells_nonempty; [exact S3|apply print_nonempty]| | |apply Ho|exact Hbs].
    + intros P HP (_ & _ & _ & p & Hq & He & Hb'). injection Hq as <-. destruct Hda as [X|[_ X]]; contradiction.
    + intros P HP. apply S_binary; [exact Ho|right; exact Hb| |discriminate|exact HP]. intros [[X _]|(_ & _ & X)]; [contradiction|].
      destruct (X a eq_refl) as (Q1 & Q2 & _). destruct Hda as [Y|[Y _]]; contradiction.
  - cbn [print] in *. destruct Hw as (Wl & Wr & _ & Hj & _). destruct Hd as [Dl Dr]. apply Forall2_app_inv_l in Hs. destruct Hs as (w1 & w2 & S1 & S2 & ->).
    assert (Hp' : opens prev \/ first_plain (print l)) by (destruct Hp as [Hp|Hp]; [left; exact Hp|right; eapply first_plain_app; exact Hp]).
    destruct (IHl prev w1 Wl Dl S1 Hp') as (a & Ha & _ & _).
    assert (Hf : first_plain (print r)).
    { unfold juxtaposed in Hj. destruct (print r) as [|[] ?]; try exact I. destruct l; try discriminate. destruct l; discriminate. }
    destruct (IHr (Some a) w2 Wr Dr S2 (or_intror Hf)) as (b & Hbs & Hdb & _). exists b. split; [|split; [exact Hdb|intros X; discriminate]]. eapply seg_app; eassumption.
Qed.

Lemma text_stands : forall e ws, wf c e -> readable c e -> Forall2 (spells c parse) (print e) ws -> no_i ws -> stand None ws (print e).
Proof.
  intros e ws Hw Hd Hs Hi. destruct (reads_all e None ws Hw Hd Hs (or_introl opens_none)) as (l & Hl & _).
  rewrite <- (app_nil_r ws), <- (app_nil_r (print e)). apply Hl; [rewrite app_nil_r; exact Hi|constructor].
Qed.

Lemma word_not_blank : forall n s, a_word n -> blank (n ++ s) -> False.
Proof.
  intros n s Hw B. apply word_visible in Hw. destruct Hw as [Hne Hv]. destruct n as [|x n]; [congruence|]. inversion B; subst. inversion Hv; subst. congruence.
Qed.
Lemma lexes_blank : forall s ws, lexes s ws -> blank s -> ws = [].
Proof.
  induction 1; intros B; try reflexivity; try (exfalso; eapply word_not_blank; [|exact B]; unfold a_word; auto; fail). apply IHlexes. inversion B. assumption.
Qed.
Lemma lexes_trim : forall s ws, lexes s ws -> ws <> [] -> trim s <> [].
Proof. intros s ws H Hn X. apply trim_nil in X. apply Hn. eapply lexes_blank; eassumption. Qed.
Lemma tokenize_text : forall e s, wf c e -> text_of c parse e s -> tokenize c parse (split_into_tokens default_splitter) s = Ok (print e).
Proof.
  intros e s Hw (ws & Hl & Hs & Hd & Hi). unfold tokenize.
  assert (T : trim s <> []) by (eapply lexes_trim; [exact Hl|eapply spells_nonempty; [exact Hs|apply print_nonempty]]).
  destruct (trim s); [congruence|]. apply lexes_split in Hl. unfold dsplit, D in Hl. rewrite Hl. apply loop_complete, text_stands; assumption.
Qed.
End ExprText.
