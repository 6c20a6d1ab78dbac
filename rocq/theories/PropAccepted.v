(** * C93: whatever is accepted is evaluated as a tree of exactly its tokens *)
From Coq Require Import List NArith ZArith Bool Arith Lia Permutation String.
From Verif Require Import ModelBase ModelContext ModelEvaluator ModelText ModelDefault ModelSplit ModelTokenizer ModelStd ModelParse ModelNum
  SpecExpr SpecGrammar SpecTokens SpecLex SpecTokenizer SpecAccepted ProofLex ProofTok ProofTokens2 ProofAccepted PropLex.
Import ListNotations.

(** If any token sequence at all, also an ungrammatical one, evaluates to a value, then that value, and the effects on the way, are those
    of an expression whose operands are the operands of the sequence, in order, and whose operations are those of the sequence and the
    implied multiplications, each made once: nothing written is ignored or used twice, and nothing is made up. *)
Theorem C93_tokens : forall V W (c : ctx V W) (dbg : bool) toks (w : W) v w', eval_tokens c dbg toks w = (Ok v, w') ->
  exists e, denote c e w = (Ok v, w') /\ leaves e = operands toks /\
    Permutation (applied e) (operations toks ++ repeat (TBinary times) (if implicit_mul (cfg c) then juxtapositions toks else 0)).
Proof. intros V W c dbg. exact (eval_tree c dbg). Qed.
Print Assumptions C93_tokens.

(** The same for a text: its words stand for tokens as the tokenizer's rules say, and the value is that of a tree of those tokens. *)
Theorem C93_text : forall V W (c : ctx V W) parse splitter (dbg : bool) s (w : W) v w', eval c parse splitter dbg s w = (Ok v, w') ->
  exists toks e, stand_for c parse None (splitter s) toks /\ denote c e w = (Ok v, w') /\ leaves e = operands toks /\
    Permutation (applied e) (operations toks ++ repeat (TBinary times) (if implicit_mul (cfg c) then juxtapositions toks else 0)).
Proof.
  intros V W c parse splitter dbg s w v w' H. unfold eval, bind, lift in H. destruct (tokenize c parse splitter s) as [toks| |] eqn:T; try discriminate H.
  destruct (C93_tokens V W c dbg toks w v w' H) as (e & E). exists toks, e. split; [|exact E].
  unfold tokenize in T. destruct (trim s); [discriminate|]. apply (loop_sound c parse (List.length (splitter s)) (splitter s) None toks (le_n _) T).
Qed.
Print Assumptions C93_text.

(** So a value that no operation is applied to is the text's only operand... *)
Theorem C93_single_operand : forall V W (c : ctx V W) (dbg : bool) toks (w : W) v w', eval_tokens c dbg toks w = (Ok v, w') ->
  operations toks = [] -> (implicit_mul (cfg c) = true -> juxtapositions toks = 0) ->
  w' = w /\ exists t, operands toks = [t] /\
    match t with TNumber n => v = n | TVariable x => get_variable c x = Some v | TConstant x => get_constant c x = Some v | _ => False end.
Proof.
  intros V W c dbg toks w v w' H Ho Hj. destruct (C93_tokens V W c dbg toks w v w' H) as (e & E & L & P).
  assert (Z : applied e = []). { apply Permutation_nil, Permutation_sym. rewrite Ho in P. destruct (implicit_mul (cfg c)); [rewrite (Hj eq_refl) in P|]; exact P. }
  rewrite <- L. clear - E Z. induction e as [n|x|x|g e IH|f g args IH|u e IH|e u IH|o l r IHl IHr|l r IHl IHr] using expr_ind'; cbn [leaves applied denote] in *;
    try (apply app_eq_nil in Z; destruct Z as [_ Z]; try (apply app_eq_nil in Z; destruct Z as [_ Z]); discriminate Z).
  - unfold ret in E. injection E as <- <-. split; [reflexivity|]. eexists. split; reflexivity.
  - unfold value_of in E. destruct (get_variable c x) eqn:G; [|discriminate]. unfold ret in E. injection E as <- <-. split; [reflexivity|]. eexists. split; [reflexivity|exact G].
  - unfold value_of in E. destruct (get_constant c x) eqn:G; [|discriminate]. unfold ret in E. injection E as <- <-. split; [reflexivity|]. eexists. split; [reflexivity|exact G].
  - apply IH; assumption.
Qed.
Print Assumptions C93_single_operand.

(** ... and whatever property the operands have and the operations preserve, the result has. *)
Theorem C93_invariants : forall V W (c : ctx V W) (P : V -> Prop),
  (forall x v, get_variable c x = Some v -> P v) -> (forall x v, get_constant c x = Some v -> P v) ->
  (forall u f x w v w', get_unary c u = Some f -> P x -> uf_call f x w = (Ok v, w') -> P v) ->
  (forall o f x y w v w', get_binary c o = Some f -> P x -> P y -> bf_call f x y w = (Ok v, w') -> P v) ->
  (forall n f xs w v w', get_function c n = Some f -> Forall P xs -> fn_call f xs w = (Ok v, w') -> P v) ->
  forall dbg toks w v w', (forall n, In (TNumber n) toks -> P n) -> eval_tokens c dbg toks w = (Ok v, w') -> P v.
Proof.
  intros V W c P Hv Hc Hu Hb Hf dbg toks w v w' Hn H. destruct (C93_tokens V W c dbg toks w v w' H) as (e & E & L & _).
  assert (Hl : forall n, In (TNumber n) (leaves e) -> P n). { intros n I. rewrite L in I. apply filter_In in I. apply Hn, I. }
  clear - E Hl Hv Hc Hu Hb Hf. revert w v w' E. induction e as [n|x|x|g e IH|f g args IH|u e IH|e u IH|o l r IHl IHr|l r IHl IHr] using expr_ind'; cbn [leaves denote] in *; intros w v w' E.
  - unfold ret in E. injection E as <- <-. apply Hl. left. reflexivity.
  - unfold value_of in E. destruct (get_variable c x) eqn:G; [|discriminate]. unfold ret in E. injection E as <- <-. exact (Hv _ _ G).
  - unfold value_of in E. destruct (get_constant c x) eqn:G; [|discriminate]. unfold ret in E. injection E as <- <-. exact (Hc _ _ G).
  - exact (IH Hl w v w' E).
  - unfold bind in E. destruct (sequence (map (denote c) args) w) as [[xs| |] w1] eqn:S; try discriminate. unfold apply_function in E. destruct (get_function c f) as [fn|] eqn:G; [|discriminate].
    apply (Hf f fn xs w1 v w' G); [|exact E]. clear E G. revert w xs w1 S. induction IH as [|a args Ha Hs IHs]; intros w xs w1 S; cbn [map sequence] in S.
    + unfold ret in S. injection S as <- <-. constructor.
    + unfold bind in S. destruct (denote c a w) as [[x| |] w2] eqn:A; try discriminate. destruct (sequence (map (denote c) args) w2) as [[ys| |] w3] eqn:B; try discriminate. unfold ret in S. injection S as <- <-.
      cbn [flat_map] in Hl. constructor; [apply (Ha (fun n I => Hl n (in_or_app _ _ _ (or_introl I))) w x w2 A)|]. apply (IHs (fun n I => Hl n (in_or_app _ _ _ (or_intror I))) w2 ys w3 B).
  - unfold bind in E. destruct (denote c e w) as [[x| |] w1] eqn:A; try discriminate. unfold apply_unary in E. destruct (get_unary c u) eqn:G; [|discriminate]. exact (Hu _ _ _ _ _ _ G (IH Hl _ _ _ A) E).
  - unfold bind in E. destruct (denote c e w) as [[x| |] w1] eqn:A; try discriminate. unfold apply_unary in E. destruct (get_unary c u) eqn:G; [|discriminate]. exact (Hu _ _ _ _ _ _ G (IH Hl _ _ _ A) E).
  - unfold bind in E. destruct (denote c l w) as [[x| |] w1] eqn:A; try discriminate. destruct (denote c r w1) as [[y| |] w2] eqn:B; try discriminate. unfold apply_binary in E. destruct (get_binary c o) eqn:G; [|discriminate].
    exact (Hb _ _ _ _ _ _ _ G (IHl (fun n I => Hl n (in_or_app _ _ _ (or_introl I))) _ _ _ A) (IHr (fun n I => Hl n (in_or_app _ _ _ (or_intror I))) _ _ _ B) E).
  - unfold bind in E. destruct (denote c l w) as [[x| |] w1] eqn:A; try discriminate. destruct (denote c r w1) as [[y| |] w2] eqn:B; try discriminate. unfold apply_binary in E. destruct (get_binary c times) eqn:G; [|discriminate].
    exact (Hb _ _ _ _ _ _ _ G (IHl (fun n I => Hl n (in_or_app _ _ _ (or_introl I))) _ _ _ A) (IHr (fun n I => Hl n (in_or_app _ _ _ (or_intror I))) _ _ _ B) E).
Qed.
Print Assumptions C93_invariants.

(** [2 3 + * 4], which is not grammatical, is [2 + 3 * 4]; [sum(1 2, +)] is [sum(1 + 2)]... and [2 3] is refused. *)
Example C93_case :
  fst (eval (std_ctx plain_config) (parse_int i128) dsplitter true (lit "2 3 + * 4") tt) = Ok 14%Z /\
  fst (denote (std_ctx plain_config) (EBin (lit "+") (ENum 2%Z) (EBin (lit "*") (ENum 3%Z) (ENum 4%Z))) tt) = Ok 14%Z /\
  fst (eval (std_ctx plain_config) (parse_int i128) dsplitter true (lit "sum(1 2, +)") tt) = Ok 3%Z /\
  fst (denote (std_ctx plain_config) (ECall (lit "sum") Parenthesis [EBin (lit "+") (ENum 1%Z) (ENum 2%Z)]) tt) = Ok 3%Z /\
  fst (eval (std_ctx plain_config) (parse_int i128) dsplitter true (lit "2 3") tt) = Err InvalidExpression /\
  fst (eval (std_ctx implicit_config) (parse_int i128) dsplitter true (lit "((7))") tt) = Ok 7%Z.
Proof. repeat split; vm_compute; reflexivity. Qed.
