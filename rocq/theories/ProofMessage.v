(** * Messages: without them the evaluation is the same; where they come from *)
From Coq Require Import List NArith ZArith Bool Arith Lia String.
From Verif Require Import ModelBase ModelContext ModelEvaluator ModelText ModelStr ModelSplit ModelTokenizer ModelDefault ModelMessage
  SpecExpr SpecGrammar SpecTokens SpecBlame SpecMessage ProofTokens2.
Import ListNotations.
Local Open Scope list_scope.

Section Same.
Context {V W : Type}.
Variable c : ctx V W.
Variable S_ : voice V W.
Variable dbg : bool.
Variable parse : str -> option V.
Notation tok := (token V).

Lemma heard_bind : forall A B (r : told A) (f : A -> told B) g, (forall a, heard (f a) = g a) -> heard (tbind r f) = rbind (heard r) g.
Proof. intros A B [a|k m|] f g H; cbn; auto. Qed.
Lemma is_unary_no_error : forall prev s n k, is_unary c parse prev s n <> Err k.
Proof.
  intros prev s n k H. unfold is_unary in H. destruct (get_unary c s) as [op|]; [|discriminate]. destruct (uf_notation op); [|discriminate]. destruct (negb n); [discriminate|].
  destruct prev as [p|]; [|discriminate]. destruct (is_close_symbol c p); [discriminate|]. destruct (is_value_name c parse p); [discriminate|]. unfold rbind, first_byte in H. destruct p as [|x p]; [discriminate|].
  destruct (is_ascii x); [|discriminate]. destruct (_ && _); discriminate.
Qed.
Lemma classify_same : forall prev s n, heard (classify_m c S_ parse prev s n) = classify c parse prev s n.
Proof.
  intros prev s n. unfold classify_m, classify. destruct (is_variable c s); [reflexivity|]. destruct (is_constant c s); [reflexivity|]. destruct (is_function_name c s); [reflexivity|].
  destruct (_ || _). { destruct (is_unary c parse prev s n) as [[]|k|]; cbn [rbind heard]; try reflexivity. destruct (negb (is_some prev) || negb n); reflexivity. }
  destruct (str_eqb s (lit ",")); [reflexivity|]. destruct (str_eqb s (lit " ")); [reflexivity|].
  destruct (if Nat.eqb (byte_len s) 1 then match s with [] => None | ch :: _ => option_map (fun p => (ch, fst p)) (get_group_symbol (cfg c) ch) end else None) as [[ch o]|]; reflexivity.
Qed.
Lemma tokenize_loop_same : forall n raw prev, (List.length raw <= n)%nat -> heard (tokenize_loop_m c S_ parse prev raw) = tokenize_loop c parse prev raw.
Proof.
  induction n as [|n IH]; intros [|s rest] prev L; cbn [List.length] in L; try lia; try reflexivity. cbn [tokenize_loop_m tokenize_loop]. destruct (parse s) as [v|].
  - destruct rest as [|im rest]; [reflexivity|]. destruct (_ && _).
    + destruct (parse (s ++ im)); [|reflexivity]. rewrite <- (IH rest (Some im)) by (cbn in L; lia). apply heard_bind. reflexivity.
    + rewrite <- (IH (im :: rest) (Some s)) by (cbn in *; lia). apply heard_bind. reflexivity.
  - rewrite <- classify_same. apply heard_bind. intros o. rewrite <- (IH rest (Some s)) by lia. apply heard_bind. reflexivity.
Qed.
Lemma tokenize_same : forall splitter s, heard (tokenize_m c S_ parse splitter s) = tokenize c parse splitter s.
Proof. intros splitter s. unfold tokenize_m, tokenize. destruct (trim s); [reflexivity|]. apply (tokenize_loop_same _ _ _ (le_n _)). Qed.

Lemma close_same : forall cl ops out argc, heard (close_loop_m c cl out ops argc) = close_loop c cl out ops argc.
Proof.
  intros cl. induction ops as [|t ops IH]; intros out argc; [reflexivity|]. destruct t; cbn [close_loop_m close_loop]; try apply IH.
  destruct (get_group_symbol (cfg c) _) as [[o' cl']|]; [|reflexivity]. destruct (char_eqb cl' cl); [|reflexivity]. destruct argc as [|m argc]; [reflexivity|]. destruct ops as [|[] ops]; reflexivity.
Qed.
Lemma comma_same : forall (ops out : list tok), heard (comma_loop_m out ops) = comma_loop out ops.
Proof. induction ops as [|t ops IH]; intros out; [reflexivity|]. destruct t; cbn [comma_loop_m comma_loop]; try apply IH. reflexivity. Qed.
Lemma step_same : forall toks pos t next y, heard (yard_step_m c S_ dbg toks pos t next y) = yard_step c dbg toks pos t next y.
Proof.
  intros toks pos t next y. destruct t; cbn [yard_step_m yard_step]; try reflexivity.
  - destruct (_ && _); reflexivity.
  - unfold push_binary_function_m, push_binary_function. destruct (get_binary c o) as [op|]; [|reflexivity]. destruct (pop_operators c op (y_out y) (y_ops y)). reflexivity.
  - unfold push_unary_function_m, push_unary_function. destruct (get_unary c u) as [f|]; [|reflexivity]. destruct (uf_notation f); [reflexivity|]. destruct (y_out y); reflexivity.
  - unfold step_close_m, step_close. rewrite <- close_same. apply heard_bind. intros [[out ops] argc]. destruct (1 <? pos)%nat; [|reflexivity]. destruct (nth_error toks (pos - 1)) as [[]|]; try reflexivity.
    destruct (get_group_open_for (cfg c) _) as [v|]; [|reflexivity]. destruct (char_eqb v _); [|reflexivity]. destruct (nth_error toks (pos - 2)) as [t|]; [|reflexivity]. destruct (is_function t); reflexivity.
  - replace (check_comma_position dbg toks (y_grp y) pos) with (heard (check_comma_position_m dbg toks (y_grp y) pos)).
    + apply heard_bind. intros []. unfold push_comma_m, push_comma. destruct (y_argc y); [reflexivity|]. rewrite <- comma_same. apply heard_bind. intros []. reflexivity.
    + unfold check_comma_position_m, check_comma_position. destruct (pos =? 0)%nat; [reflexivity|]. destruct (tok_at toks (pos - 1) is_grouping_open); [reflexivity|]. destruct (tok_at toks (pos + 1) is_grouping_close); [reflexivity|].
      destruct (y_grp y) as [|[|l] grp]; [reflexivity| |]; [destruct dbg|destruct (tok_at toks l is_function)]; reflexivity.
Qed.
Lemma loop_same : forall toks rest pos y, heard (yard_loop_m c S_ dbg toks pos rest y) = yard_loop c dbg toks pos rest y.
Proof.
  intros toks. induction rest as [|t rest IH]; intros pos y; [reflexivity|]. cbn [yard_loop_m yard_loop]. rewrite <- step_same. apply heard_bind. intros y'. apply IH.
Qed.
Lemma finish_same : forall (ops out : list tok), heard (finish_m out ops) = finish out ops.
Proof. induction ops as [|t ops IH]; intros out; [reflexivity|]. cbn [finish_m finish]. destruct (is_grouping_close t); [reflexivity|apply IH]. Qed.
Lemma infix_same : forall toks, heard (infix_to_rpn_m c S_ dbg toks) = infix_to_rpn c dbg toks.
Proof. intros toks. unfold infix_to_rpn_m, infix_to_rpn. rewrite <- loop_same. apply heard_bind. intros y. apply finish_same. Qed.

Definition hears {A} (r : told A * W) : res A * W := (heard (fst r), snd r).
Lemma called_same : forall A (m : W -> res V * W) text (next : V -> W -> told A * W) (f : V -> M W A) w, (forall v w, hears (next v w) = f v w) -> hears (called (m w) text next) = bind m f w.
Proof. intros A m text next f w H. unfold called, bind. destruct (m w) as [[v|k|] w']; [apply H|reflexivity..]. Qed.
Lemma rpn_same : forall toks rpn values ac w, hears (rpn_loop_m c S_ dbg toks rpn values ac w) = rpn_loop c dbg rpn values ac w.
Proof.
  intros toks. induction rpn as [|t rpn IH]; intros values ac w; [reflexivity|]. destruct t; cbn [rpn_loop_m rpn_loop]; try apply IH; try reflexivity.
  - destruct (get_variable c x); [apply IH|reflexivity].
  - destruct (get_constant c x); [apply IH|reflexivity].
  - destruct (get_function c f) as [fn|]; [|reflexivity]. destruct ac as [n|]; [|reflexivity]. destruct (pop_args n values []) as [values' args]. apply called_same. intros v w'. apply IH.
  - destruct (get_binary c o) as [fn|]; [|reflexivity]. destruct values as [|x [|y values]]; try reflexivity. apply (called_same _ (bf_call fn y x)). intros v w'. apply IH.
  - destruct (get_unary c u) as [fn|]; [|reflexivity]. destruct values as [|x values]; try reflexivity. apply called_same. intros v w'. apply IH.
  - destruct (dbg && is_some ac); [reflexivity|apply IH].
Qed.
Lemma eval_tokens_same : forall toks w, hears (eval_tokens_m c S_ dbg toks w) = eval_tokens c dbg toks w.
Proof.
  intros toks w. unfold eval_tokens_m, eval_tokens, lift. unfold bind at 1. rewrite <- infix_same. destruct (infix_to_rpn_m c S_ dbg toks) as [rpn|k m|]; [|reflexivity..]. cbn [heard]. unfold bind.
  rewrite <- (rpn_same toks). destruct (rpn_loop_m c S_ dbg toks rpn [] None w) as [[vs|k m|] w']; [|reflexivity..]. unfold hears. cbn [heard fst snd]. destruct vs as [|v [|v' vs]]; reflexivity.
Qed.
Lemma eval_same : forall splitter s w, hears (eval_m c S_ dbg parse splitter s w) = eval c parse splitter dbg s w.
Proof.
  intros splitter s w. unfold eval_m, eval, bind, lift. rewrite <- tokenize_same. destruct (tokenize_m c S_ parse splitter s); [|reflexivity..]. cbn [heard]. apply eval_tokens_same.
Qed.
End Same.
