(** * Values that operations keep to are kept to by the evaluator *)
From Coq Require Import List NArith Bool Arith Lia.
From Verif Require Import ModelBase ModelContext ModelEvaluator ModelTokenizer SpecExpr SpecTokens SpecLex SpecTokenizer ProofTokens2 PropLex.
Import ListNotations.

Section Closed.
Context {V W : Type}.
Variable c : ctx V W.
Variable dbg : bool.
Variable P : V -> Prop.
Hypothesis Pvar : forall x v, get_variable c x = Some v -> P v.
Hypothesis Pconst : forall x v, get_constant c x = Some v -> P v.
Hypothesis Pun : forall u f x w v w', get_unary c u = Some f -> P x -> uf_call f x w = (Ok v, w') -> P v.
Hypothesis Pbin : forall o f x y w v w', get_binary c o = Some f -> P x -> P y -> bf_call f x y w = (Ok v, w') -> P v.
Hypothesis Pfun : forall g f xs w v w', get_function c g = Some f -> Forall P xs -> fn_call f xs w = (Ok v, w') -> P v.

Lemma pop_closed : forall n vals args, Forall P vals -> Forall P args -> Forall P (fst (pop_args n vals args)) /\ Forall P (snd (pop_args n vals args)).
Proof.
  induction n as [|n IH]; intros vals args Hv Ha; [split; assumption|]. cbn [pop_args]. destruct vals as [|v vals]; [apply IH; assumption|].
  inversion Hv; subst. apply IH; [assumption|]. apply Forall_app. split; [exact Ha|]. constructor; [assumption|constructor].
Qed.
Lemma loop_closed : forall rpn vals ac w vs w', (forall v, In (TNumber v) rpn -> P v) -> Forall P vals -> rpn_loop c dbg rpn vals ac w = (Ok vs, w') -> Forall P vs.
Proof.
  induction rpn as [|t rpn IH]; intros vals ac w vs w' Hn Hv X; [injection X as <- <-; exact Hv|].
  assert (Hn' : forall v, In (TNumber v) rpn -> P v) by (intros v Y; apply Hn; right; exact Y). cbn [rpn_loop] in X.
  destruct t as [v|x|x|x|x|x|k|k|k|x|]; try discriminate.
  - refine (IH _ _ _ _ _ Hn' _ X). constructor; [apply Hn; left; reflexivity|exact Hv].
  - destruct (get_variable c x) as [v|] eqn:G; [|discriminate]. refine (IH _ _ _ _ _ Hn' _ X). constructor; [exact (Pvar x v G)|exact Hv].
  - destruct (get_constant c x) as [v|] eqn:G; [|discriminate]. refine (IH _ _ _ _ _ Hn' _ X). constructor; [exact (Pconst x v G)|exact Hv].
  - destruct (get_function c x) as [f|] eqn:G; [|discriminate]. destruct ac as [k|]; [|discriminate]. pose proof (pop_closed k vals [] Hv (Forall_nil _)) as [A B].
    destruct (pop_args k vals []) as [vals' args]. cbn [fst snd] in A, B. unfold bind in X. destruct (fn_call f (rev args) w) as [[r|e|] w1] eqn:F; try discriminate.
    refine (IH _ _ _ _ _ Hn' _ X). constructor; [|exact A]. apply (Pfun x f (rev args) w r w1 G); [|exact F]. apply Forall_rev. exact B.
  - destruct (get_binary c x) as [f|] eqn:G; [|discriminate]. destruct vals as [|a [|b vals]]; try discriminate. inversion Hv as [|? ? Pa Hv']; subst. inversion Hv' as [|? ? Pb Hv'']; subst.
    unfold bind in X. destruct (bf_call f b a w) as [[r|e|] w1] eqn:F; try discriminate. refine (IH _ _ _ _ _ Hn' _ X). constructor; [exact (Pbin x f b a w r w1 G Pb Pa F)|assumption].
  - destruct (get_unary c x) as [f|] eqn:G; [|discriminate]. destruct vals as [|a vals]; try discriminate. inversion Hv as [|? ? Pa Hv']; subst.
    unfold bind in X. destruct (uf_call f a w) as [[r|e|] w1] eqn:F; try discriminate. refine (IH _ _ _ _ _ Hn' _ X). constructor; [exact (Pun x f a w r w1 G Pa F)|assumption].
  - destruct (dbg && is_some ac); [discriminate|]. exact (IH _ _ _ _ _ Hn' Hv X).
Qed.
Lemma tokens_closed : forall toks w v w', (forall v, In (TNumber v) toks -> P v) -> eval_tokens c dbg toks w = (Ok v, w') -> P v.
Proof.
  intros toks w v w' Hn X. unfold eval_tokens, bind, lift in X. destruct (infix_to_rpn c dbg toks) as [rpn|k|] eqn:I; try discriminate.
  destruct (rpn_loop c dbg rpn [] None w) as [[vs|k|] w1] eqn:R; try discriminate.
  assert (F : Forall P vs).
  { apply (loop_closed rpn [] None w vs w1); [|constructor|exact R]. intros u Hu. apply Hn. destruct (infix_conserved c dbg toks rpn I) as (O & _).
    assert (K : In (TNumber u) (operands rpn)) by (apply filter_In; split; [exact Hu|reflexivity]). rewrite O in K. apply filter_In in K. apply K. }
  destruct vs as [|x [|y vs]]; try discriminate. unfold ret in X. injection X as <- _. inversion F; assumption.
Qed.
Lemma text_closed : forall parse splitter s w v w', (forall x u, parse x = Some u -> P u) -> eval c parse splitter dbg s w = (Ok v, w') -> P v.
Proof.
  intros parse splitter s w v w' Hp X. unfold eval, bind, lift in X. destruct (tokenize c parse splitter s) as [ts|k|] eqn:T; try discriminate.
  apply C13_words_to_tokens in T. destruct T as [_ T]. apply (tokens_closed ts w v w'); [|exact X]. intros u. clear X. revert u.
  induction T as [prev|prev ws ts Hs _ IH|prev x ws t ts Ht _ _ _ IH|prev x ws u0 ts _ _ Hx _ IH]; intros u Hu.
  - destruct Hu.
  - apply IH. exact Hu.
  - destruct Hu as [->|Hu]; [|apply IH; exact Hu]. inversion Ht; subst. eapply Hp. eassumption.
  - destruct Hu as [Hu|Hu]; [|apply IH; exact Hu]. injection Hu as ->. eapply Hp. exact Hx.
Qed.
End Closed.
