(** * Contexts that differ in what some operators compute *)
From Coq Require Import List NArith ZArith Bool Arith Lia.
From Verif Require Import ModelBase ModelContext ModelEvaluator ModelText ModelStr ModelSplit ModelTokenizer ModelDefault SpecExpr SpecFrame ProofFrame.
Import ListNotations.

Section Shape.
Context {V W : Type}.
Variables c c' : ctx V W.
Variable parse : str -> option V.
Hypothesis Hcfg : cfg c = cfg c'.
Hypothesis Hvar : forall x, get_variable c x = get_variable c' x.
Hypothesis Hconst : forall x, get_constant c x = get_constant c' x.
Hypothesis Hfun : forall x, is_some (get_function c x) = is_some (get_function c' x).
Hypothesis Hbin : forall x, is_some (get_binary c x) = is_some (get_binary c' x).
Hypothesis Hun : forall x, option_map uf_notation (get_unary c x) = option_map uf_notation (get_unary c' x).

Lemma un_some : forall x, is_some (get_unary c x) = is_some (get_unary c' x).
Proof. intros x. specialize (Hun x). destruct (get_unary c x), (get_unary c' x); try discriminate; reflexivity. Qed.

Lemma classify_shape : forall p s h, classify c parse p s h = classify c' parse p s h.
Proof.
  intros p s h. assert (U : is_unary c parse p s h = is_unary c' parse p s h).
  { unfold is_unary. pose proof (Hun s) as Hs. destruct (get_unary c s) as [f|], (get_unary c' s) as [f'|]; try discriminate; [|reflexivity].
    cbn in Hs. injection Hs as ->. unfold is_close_symbol, is_value_name, is_variable, is_constant, is_unary_function, is_binary_function.
    rewrite <- Hcfg. destruct (uf_notation f'), p as [q|]; try reflexivity.
    - rewrite Hvar, Hconst. destruct (first_byte q) as [b| |]; cbn [rbind]; rewrite ?un_some, ?Hbin; reflexivity.
    - rewrite Hvar, Hconst. reflexivity. }
  unfold classify. rewrite U. unfold is_variable, is_constant, is_function_name, is_binary_function, is_unary_function.
  rewrite Hvar, Hconst, Hfun, Hbin, un_some, Hcfg. reflexivity.
Qed.
Lemma loop_shape : forall k raw p, length raw <= k -> tokenize_loop c parse p raw = tokenize_loop c' parse p raw.
Proof.
  induction k as [|k IH]; intros [|s rest] p Hk; try reflexivity; [cbn in Hk; lia|]. cbn [length] in Hk.
  cbn [tokenize_loop]. destruct (parse s) as [v|].
  - destruct rest as [|im rest']; [reflexivity|]. cbn [length] in Hk. rewrite <- Hcfg. rewrite (IH rest') by lia. rewrite (IH (im :: rest')) by (cbn; lia). reflexivity.
  - rewrite classify_shape. rewrite (IH rest) by lia. reflexivity.
Qed.
Lemma tokenize_shape : forall splitter s, tokenize c parse splitter s = tokenize c' parse splitter s.
Proof. intros sp s. unfold tokenize. destruct (trim s); [reflexivity|]. eapply loop_shape. reflexivity. Qed.

(** Names in tokens are words. *)
Definition named (t : token V) (x : str) : Prop :=
  match t with TVariable y | TConstant y | TFunction y | TBinary y | TUnary y => y = x | _ => False end.
Lemma classify_word : forall p s h t x, classify c parse p s h = Ok (Some t) -> named t x -> x = s.
Proof.
  intros p s h t x H N. unfold classify in H.
  destruct (is_variable c s); [injection H as <-; symmetry; exact N|]. destruct (is_constant c s); [injection H as <-; symmetry; exact N|].
  destruct (is_function_name c s); [injection H as <-; symmetry; exact N|].
  destruct (is_binary_function c s || is_unary_function c s).
  - destruct (is_unary c parse p s h) as [u| |]; try discriminate. cbn [rbind] in H. destruct u; [injection H as <-; symmetry; exact N|].
    destruct (negb (is_some p) || negb h); [discriminate|]. injection H as <-. symmetry. exact N.
  - destruct (str_eqb s _); [injection H as <-; destruct N|]. destruct (str_eqb s _); [discriminate|].
    destruct (if Nat.eqb _ _ then _ else _) as [[ch o]|]; injection H as <-; [|destruct N]. destruct (char_eqb ch o); destruct N.
Qed.
Lemma loop_words : forall k raw p ts, length raw <= k -> tokenize_loop c parse p raw = Ok ts -> forall t x, In t ts -> named t x -> In x raw.
Proof.
  induction k as [|k IH]; intros [|s rest] p ts Hk H t x Ht N; try (cbn in H; injection H as <-; destruct Ht); [cbn in Hk; lia|]. cbn [length] in Hk.
  cbn [tokenize_loop] in H. destruct (parse s) as [v|].
  - destruct rest as [|im rest'].
    + injection H as <-. destruct Ht as [<-|[]]. destruct N.
    + cbn [length] in Hk. destruct (complex_number (cfg c) && str_eqb im _).
      * destruct (parse (s ++ im)) as [v'|]; [|discriminate]. destruct (tokenize_loop c parse (Some im) rest') as [ts'| |] eqn:L; try discriminate.
        cbn [rbind] in H. injection H as <-. destruct Ht as [<-|Ht]; [destruct N|]. right. right. eapply IH; [|exact L|exact Ht|exact N]. lia.
      * destruct (tokenize_loop c parse (Some s) (im :: rest')) as [ts'| |] eqn:L; try discriminate.
        cbn [rbind] in H. injection H as <-. destruct Ht as [<-|Ht]; [destruct N|]. right. eapply IH; [|exact L|exact Ht|exact N]. cbn; lia.
  - destruct (classify c parse p s _) as [o| |] eqn:C; try discriminate. cbn [rbind] in H.
    destruct (tokenize_loop c parse (Some s) rest) as [ts'| |] eqn:L; try discriminate. cbn [rbind] in H. injection H as <-.
    assert (R : In t ts' -> In x (s :: rest)) by (intros J; right; eapply IH; [|exact L|exact J|exact N]; lia).
    destruct o as [t0|]; [|exact (R Ht)]. destruct Ht as [<-|Ht]; [|exact (R Ht)]. left. symmetry. eapply classify_word; [exact C|exact N].
Qed.

(** What the operators and functions named in a text compute is the same. *)
Theorem text_shape : forall dbg splitter s w,
  (implicit_mul (cfg c) = true -> get_binary c times = get_binary c' times) ->
  (forall x, In x (splitter s) -> get_function c x = get_function c' x /\ get_binary c x = get_binary c' x /\ get_unary c x = get_unary c' x) ->
  eval c parse splitter dbg s w = eval c' parse splitter dbg s w.
Proof.
  intros dbg sp s w Ht H. unfold eval, bind, lift. rewrite <- (tokenize_shape sp s). destruct (tokenize c parse sp s) as [ts| |] eqn:T; try reflexivity.
  apply (@eval_like V W c c' dbg Hcfg Ht). assert (N : forall t x, In t ts -> named t x -> In x (sp s)).
  { unfold tokenize in T. destruct (trim s); [discriminate|]. intros t x It Nt. eapply (loop_words _ _ _ _ (le_n _) T); eassumption. }
  clear T. induction ts as [|t ts IH]; [constructor|]. constructor; [|apply IH; intros t' x It; apply (N t' x (or_intror It))].
  destruct t; constructor; auto; apply H; apply (N _ _ (or_introl eq_refl)); reflexivity.
Qed.
End Shape.
