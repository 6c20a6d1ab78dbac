(** * An expression's result depends only on the names that occur in it *)
From Coq Require Import List NArith Bool Arith Lia Permutation.
From Verif Require Import ModelBase ModelContext ModelEvaluator ModelText ModelStr ModelSplit ModelTokenizer SpecExpr SpecTokens ProofTokens2.
Import ListNotations.

Section Frame.
Context {V W : Type}.
Variables (cf : config) (gu : str -> option (ufunc V W)) (gb : str -> option (bfunc V W)).
Variables (gv gv' gc gc' : str -> option V) (gf gf' : str -> option (func V W)).
Variable parse : str -> option V.
Notation c := (Ctx cf gv gc gf gu gb).
Notation c' := (Ctx cf gv' gc' gf' gu gb).
Definition agrees (x : str) : Prop := gv x = gv' x /\ gc x = gc' x /\ gf x = gf' x.
(** Names of values and functions in a token. *)
Definition token_agrees (t : token V) : Prop :=
  match t with TVariable x => gv x = gv' x | TConstant x => gc x = gc' x | TFunction x => gf x = gf' x | _ => True end.

Lemma value_agrees : forall x, agrees x -> is_value_name c parse x = is_value_name c' parse x.
Proof. intros x (H1 & H2 & _). unfold is_value_name, is_variable, is_constant. cbn [get_variable get_constant]. rewrite H1, H2. reflexivity. Qed.
Lemma unary_agrees : forall prev x b, (forall p, prev = Some p -> agrees p) -> is_unary c parse prev x b = is_unary c' parse prev x b.
Proof.
  intros prev x b Hp. unfold is_unary. cbn [get_unary]. destruct (gu x) as [op|]; [|reflexivity]. destruct prev as [p|]; [|reflexivity].
  rewrite (value_agrees p (Hp p eq_refl)). reflexivity.
Qed.
Lemma classify_agrees : forall prev x b, agrees x -> (forall p, prev = Some p -> agrees p) ->
  classify c parse prev x b = classify c' parse prev x b /\ (forall t, classify c parse prev x b = Ok (Some t) -> token_agrees t).
Proof.
  intros prev x b (H1 & H2 & H3) Hp. unfold classify. rewrite (unary_agrees prev x b Hp). unfold is_variable, is_constant, is_function_name.
  cbn [get_variable get_constant get_function cfg]. rewrite <- H1, <- H2, <- H3.
  destruct (gv x) eqn:Gv; cbn [is_some]; [split; [reflexivity|intros t H; injection H as <-; cbn; congruence]|].
  destruct (gc x) eqn:Gc; cbn [is_some]; [split; [reflexivity|intros t H; injection H as <-; cbn; congruence]|].
  destruct (gf x) eqn:Gf; cbn [is_some]; [split; [reflexivity|intros t H; injection H as <-; cbn; congruence]|].
  split; [reflexivity|]. intros t. change (is_binary_function c x) with (is_some (gb x)). change (is_unary_function c x) with (is_some (gu x)).
  destruct (_ || _).
  - destruct (is_unary c' parse prev x b) as [[]| |]; cbn [rbind]; try discriminate; [intros H; injection H as <-; exact I|].
    destruct (_ || _); [discriminate|]. intros H; injection H as <-; exact I.
  - destruct (str_eqb x _); [intros H; injection H as <-; exact I|]. destruct (str_eqb x _); [discriminate|].
    destruct (if (byte_len x =? 1)%nat then _ else _) as [[ch op]|]; intros H; injection H as <-; [destruct (char_eqb ch op)|]; exact I.
Qed.
Lemma loop_agrees : forall n raw prev, (List.length raw <= n)%nat -> Forall agrees raw -> (forall p, prev = Some p -> agrees p) ->
  tokenize_loop c parse prev raw = tokenize_loop c' parse prev raw /\ (forall ts, tokenize_loop c parse prev raw = Ok ts -> Forall token_agrees ts).
Proof.
  induction n as [|n IH]; intros raw prev Hl Hr Hp; destruct raw as [|x raw]; try (simpl in Hl; lia); try (split; [reflexivity|intros ts H; injection H as <-; constructor]).
  inversion Hr as [|? ? Hx Hr']; subst. cbn [List.length] in Hl. cbn [tokenize_loop].
  assert (S : forall p, Some x = Some p -> agrees p) by (intros p H; injection H as <-; exact Hx).
  destruct (parse x) as [v|].
  - destruct raw as [|im raw']; [split; [reflexivity|intros ts H; injection H as <-; repeat constructor]|].
    inversion Hr' as [|? ? Hi Hr2]; subst. cbn [cfg]. destruct (complex_number cf && _).
    + destruct (parse (x ++ im)) as [v'|]; [|split; [reflexivity|discriminate]].
      destruct (IH raw' (Some im)) as [E T]; [simpl in Hl; lia|exact Hr2|intros p H; injection H as <-; exact Hi|].
      rewrite E in *. split; [reflexivity|]. destruct (tokenize_loop c' parse (Some im) raw') as [ts| |]; try discriminate. intros r H; injection H as <-. constructor; [exact I|apply T; reflexivity].
    + destruct (IH (im :: raw') (Some x)) as [E T]; [lia|exact Hr'|exact S|]. rewrite E in *. split; [reflexivity|].
      destruct (tokenize_loop c' parse (Some x) (im :: raw')) as [ts| |]; try discriminate. intros r H; injection H as <-. constructor; [exact I|apply T; reflexivity].
  - destruct (classify_agrees prev x (negb (List.length raw =? 0)%nat) Hx Hp) as [E T]. rewrite E in *.
    destruct (classify c' parse prev x _) as [o| |]; cbn [rbind]; try (split; [reflexivity|discriminate]).
    destruct (IH raw (Some x)) as [E2 T2]; [lia|exact Hr'|exact S|]. rewrite E2 in *. split; [reflexivity|].
    destruct (tokenize_loop c' parse (Some x) raw) as [ts| |]; try discriminate. intros r H; injection H as <-.
    destruct o as [t|]; [constructor; [apply T; reflexivity|]|]; apply T2; reflexivity.
Qed.
Lemma rpn_agrees : forall dbg rpn, Forall token_agrees rpn -> forall vals ac w, rpn_loop c dbg rpn vals ac w = rpn_loop c' dbg rpn vals ac w.
Proof.
  intros dbg rpn. induction rpn as [|t rpn IH]; intros Hr vals ac w; [reflexivity|]. inversion Hr as [|? ? Ht Hr']; subst. specialize (IH Hr').
  destruct t; cbn [rpn_loop get_variable get_constant get_function get_unary get_binary]; try reflexivity; try apply IH.
  - cbn in Ht. rewrite Ht. destruct (gv' x); [apply IH|reflexivity].
  - cbn in Ht. rewrite Ht. destruct (gc' x); [apply IH|reflexivity].
  - cbn in Ht. rewrite Ht. destruct (gf' f); [|reflexivity]. destruct ac as [k|]; [|reflexivity]. destruct (pop_args k vals []) as [vs args].
    unfold bind. destruct (fn_call f0 (rev args) w) as [[r| |] w']; try reflexivity. apply IH.
  - destruct (gb o) as [f|]; [|reflexivity]. destruct vals as [|x [|y vals]]; try reflexivity. unfold bind. destruct (bf_call f y x w) as [[r| |] w']; try reflexivity. apply IH.
  - destruct (gu u) as [f|]; [|reflexivity]. destruct vals as [|x vals]; try reflexivity. unfold bind. destruct (uf_call f x w) as [[r| |] w']; try reflexivity. apply IH.
  - destruct (dbg && is_some ac); [reflexivity|apply IH].
Qed.

Lemma infix_same : forall dbg toks, infix_to_rpn c dbg toks = infix_to_rpn c' dbg toks.
Proof. reflexivity. Qed.
Theorem tokens_agree : forall dbg toks w, Forall token_agrees toks -> eval_tokens c dbg toks w = eval_tokens c' dbg toks w.
Proof.
  intros dbg toks w Ht. unfold eval_tokens. rewrite <- (infix_same dbg toks). unfold bind, lift.
  destruct (infix_to_rpn c dbg toks) as [rpn| |] eqn:R; try reflexivity. rewrite rpn_agrees; [reflexivity|].
  destruct (infix_conserved c dbg toks rpn R) as (Ho & Hp & _). apply Forall_forall. intros t It. pose proof (proj1 (Forall_forall _ _) Ht) as Ht'.
  destruct t; try exact I.
  - apply Ht'. assert (J : In (TVariable x) (operands toks)) by (rewrite <- Ho; apply filter_In; split; [exact It|reflexivity]). apply filter_In in J. apply J.
  - apply Ht'. assert (J : In (TConstant x) (operands toks)) by (rewrite <- Ho; apply filter_In; split; [exact It|reflexivity]). apply filter_In in J. apply J.
  - apply Ht'. assert (J : In (TFunction f) (operations rpn)) by (apply filter_In; split; [exact It|reflexivity]).
    apply (Permutation_in _ Hp), in_app_or in J. destruct J as [J|J]; [apply filter_In in J; apply J|]. apply repeat_spec in J. discriminate.
Qed.
Theorem text_agrees : forall dbg splitter s w, Forall agrees (splitter s) -> eval c parse splitter dbg s w = eval c' parse splitter dbg s w.
Proof.
  intros dbg splitter s w Hs. unfold eval, tokenize, bind, lift. destruct (trim s) as [|ch0 tl0]; [reflexivity|].
  destruct (loop_agrees _ (splitter s) None (le_n _) Hs) as [E T]; [discriminate|]. rewrite <- E.
  destruct (tokenize_loop c parse None (splitter s)) as [ts| |]; try reflexivity. apply tokens_agree. apply T. reflexivity.
Qed.
End Frame.
