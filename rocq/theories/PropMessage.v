(** * C108: the messages of errors *)
From Coq Require Import List NArith ZArith Bool Arith Lia String.
From Verif Require Import ModelBase ModelContext ModelEvaluator ModelText ModelStr ModelSplit ModelTokenizer ModelDefault ModelMessage ModelNum
  SpecExpr SpecGrammar SpecTokens SpecText SpecLex SpecBlame SpecMessage ProofMessage ProofMessage2 ProofMessage3.
From Verif Require Import ModelParse ModelStd SpecTokenizer ProofTok2 ProofWf.
From Verif Require ModelServer PropLex.
Import ListNotations.
Local Open Scope string_scope.
Local Open Scope list_scope.

(** The texts change nothing: the values, the kinds of errors, the panics and the states are those of the evaluation that the other theorems are about. *)
Theorem C108_same : forall V W (c : ctx V W) (S_ : voice V W) dbg parse splitter,
  (forall ts w, (heard (fst (eval_tokens_m c S_ dbg ts w)), snd (eval_tokens_m c S_ dbg ts w)) = eval_tokens c dbg ts w) /\
  (forall s w, (heard (fst (eval_m c S_ dbg parse splitter s w)), snd (eval_m c S_ dbg parse splitter s w)) = eval c parse splitter dbg s w).
Proof. intros V W c S_ dbg parse splitter. split; [apply eval_tokens_same|apply eval_same]. Qed.
Print Assumptions C108_same.

(** A well-formed expression says what the first of its operations that fails says, in the order of evaluation. *)
Theorem C108_expression : forall V W (c : ctx V W) (S_ : voice V W) dbg e w, wf c e -> eval_tokens_m c S_ dbg (print e) w = tell c S_ e w.
Proof. intros V W c S_ dbg e w H. exact (eval_tokens_told c S_ dbg e w H). Qed.
Print Assumptions C108_expression.
Theorem C108_text_of_expression : forall V W (c : ctx V W) (S_ : voice V W) dbg parse splitter s e w, tokenize c parse splitter s = Ok (print e) -> wf c e ->
  eval_m c S_ dbg parse splitter s w = tell c S_ e w.
Proof.
  intros V W c S_ dbg parse splitter s e w T H. unfold eval_m. pose proof (ProofMessage.tokenize_same c S_ parse splitter s) as E. rewrite T in E. destruct (tokenize_m c S_ parse splitter s); cbn [heard] in E; try discriminate. injection E as ->. exact (eval_tokens_told c S_ dbg e w H).
Qed.
Print Assumptions C108_text_of_expression.

(** Any tokens: the message tells a fault in their order, a name that the context does not have, or what an operator or function among them said. *)
Theorem C108_tokens : forall V W (c : ctx V W) (S_ : voice V W) dbg ts w k m w', eval_tokens_m c S_ dbg ts w = (Errs k m, w') ->
  disorder c S_ ts k m \/ (k = InvalidInput /\ missing c ts m) \/ failure c S_ ts w' k m.
Proof. intros V W c S_ dbg ts w k m w' H. destruct (eval_tokens_verdict c S_ dbg ts w k m w' H) as [[X|X]|X]; auto. Qed.
Print Assumptions C108_tokens.

(** Any text: it is blank, its words do not fit, or its tokens do not. Of names only those of operators that are unary but used as binary ones are missing. *)
Theorem C108_text : forall V W (c : ctx V W) (S_ : voice V W) dbg parse splitter s w k m w', eval_m c S_ dbg parse splitter s w = (Errs k m, w') ->
  (blank s /\ k = Empty /\ m = lit "Expression is empty" /\ w' = w) \/
  (~ blank s /\ bad_words c S_ parse (splitter s) k m /\ w' = w) \/
  (~ blank s /\ exists ts, tokenize c parse splitter s = Ok ts /\
    (disorder c S_ ts k m \/ failure c S_ ts w' k m \/
     k = InvalidInput /\ exists o, In (TBinary o) ts /\ get_binary c o = None /\ get_unary c o <> None /\ m = lit "Binary function " ++ ticks o ++ lit " not found")).
Proof.
  intros V W c S_ dbg parse splitter s w k m w' H. unfold eval_m in H. destruct (blank_dec s) as [B|B].
  - left. assert (T : tokenize_m c S_ parse splitter s = Errs Empty (lit "Expression is empty")) by (unfold tokenize_m; rewrite (proj2 (trim_blank s) B); reflexivity). rewrite T in H. injection H as <- <- <-. auto.
  - right. pose proof (ProofMessage.tokenize_same c S_ parse splitter s) as E. destruct (tokenize_m c S_ parse splitter s) as [ts|k1 m1|] eqn:T; [| |discriminate].
    + right. split; [exact B|]. exists ts. cbn [heard] in E. split; [symmetry; exact E|]. destruct (eval_tokens_verdict c S_ dbg ts w k m w' H) as [[X|[-> X]]|X]; auto.
      right. right. split; [reflexivity|]. pose proof (tokenize_found c parse splitter s ts (eq_sym E)) as F. rewrite Forall_forall in F. destruct X as [x I G|x I G|f I G|u I G|o I G]; specialize (F _ I); cbn in F; try congruence.
      exists o. destruct F as [F|F]; [auto|congruence].
    + left. injection H as <- <- <-. destruct (tokenize_verdict c S_ parse splitter s _ _ T) as [(X & _)|X]; [exfalso; apply B, trim_blank, X|auto].
Qed.
Print Assumptions C108_text.

(** If operators and functions say of their errors only the kind, except of invalid inputs, as all of prexel's do, then so does every message but of the kinds [Empty], [InvalidInput] and [InvalidExpression]. *)
Definition plain_voice {V W} (S_ : voice V W) : Prop :=
  (forall u x w k, k <> InvalidInput -> v_unary S_ u x w k = kind_text k) /\ (forall o x y w k, k <> InvalidInput -> v_binary S_ o x y w k = kind_text k) /\
  (forall f xs w k, k <> InvalidInput -> v_function S_ f xs w k = kind_text k).
Theorem C108_kinds : forall V W (c : ctx V W) (S_ : voice V W) dbg parse splitter s w k m w', plain_voice S_ -> eval_m c S_ dbg parse splitter s w = (Errs k m, w') ->
  k = Empty \/ k = InvalidInput \/ k = InvalidExpression \/ m = kind_text k.
Proof.
  intros V W c S_ dbg parse splitter s w k m w' (P1 & P2 & P3) H. destruct (C108_text V W c S_ dbg parse splitter s w k m w' H) as [(_ & -> & _)|[(_ & X & _)|(_ & ts & _ & X)]]; auto.
  - destruct X; auto.
  - destruct X as [X|[X|(-> & _)]]; auto.
    + destruct X; auto.
    + assert (D : k = InvalidInput \/ k <> InvalidInput) by (destruct k; ((left; reflexivity) || (right; discriminate))). destruct D as [->|D]; auto. right. right. right. destruct X; auto.
Qed.
Print Assumptions C108_kinds.

(** The standard text of each kind, word for word; no two kinds have the same one, so that it tells the kind. *)
Theorem C108_standard :
  map kind_text [Overflow; Zero; NAN; InvalidInput; InvalidArgumentCount; DivisionByZero; NegativeValue; PositiveValue; Empty; InvalidExpression; Unknown_] =
  map lit ["Value has overflow"; "Value is zero"; "Value is 'not a number'"; "Invalid input"; "Invalid number of arguments"; "Cannot divide by zero"; "Value is negative"; "Value is positive";
           "Empty input"; "Invalid expression"; "Unknown error"] /\
  forall k k', kind_text k = kind_text k' -> k = k'.
Proof. split; [reflexivity|]. intros k k' H. destruct k, k'; (reflexivity || discriminate H). Qed.
Print Assumptions C108_standard.

(** ** Cases *)
Definition plain : voice Z unit := Voice Z unit (lit "i64") ModelServer.show_int (fun ch => [ch]) (fun _ _ _ => kind_text) (fun _ _ _ _ => kind_text) (fun _ _ _ => kind_text).
Definition said (s : string) : res Z * str :=
  match fst (eval_m (std_ctx plain_config) plain true (parse_int i64) PropLex.dsplitter (lit s) tt) with Says v => (Ok v, []) | Errs k m => (Err k, m) | Dies => (Panic, []) end.
Lemma plain_is : plain_voice plain.
Proof. repeat split. Qed.
(** The second operand in the message about a leading operator is the operator again: the code looks up the word at its own place. *)
Example C108_case :
  said "1 / (3 - 3)" = (Err DivisionByZero, lit "Cannot divide by zero") /\ said "  " = (Err Empty, lit "Expression is empty") /\
  said "* 2" = (Err InvalidExpression, lit "Binary operations need 2 operands: None * Some(""*"")") /\ said "2 *" = (Err InvalidExpression, lit "Binary operations need 2 operands: Some(""2"") * None") /\
  said "1 $ 2" = (Err InvalidInput, lit "Invalid token: Unknown(""$"")") /\ said "(1" = (Err InvalidInput, lit "Unknown token: `ParenthesisOpen(''('')`") /\
  said "max 1" = (Err InvalidInput, lit "Function arguments of `max` are not within a parentheses") /\ said "max(,1)" = (Err InvalidInput, lit "Misplaced comma: `(,`") /\
  said "2 + ()" = (Err InvalidInput, lit "Empty grouping symbols: ()") /\ said "1, 2" = (Err InvalidExpression, lit "Comma found but not function") /\
  said "1)" = (Err InvalidExpression, lit "Misplace grouping symbol") /\ said "1 + * 2" = (Err InvalidExpression, lit "[Number(1), BinaryOperator('""+""'), BinaryOperator('""*""'), Number(2)]") /\
  said "1 2" = (Err InvalidExpression, lit "Invalid expression") /\ said "2 + 3" = (Ok 5%Z, []).
Proof. repeat (split; [vm_compute; reflexivity|]). vm_compute. reflexivity. Qed.
(** A well-formed expression: the factorial fails before the division. *)
Definition C108_tree : expr Z := EBin (lit "/") (ENum 1%Z) (EGroup Parenthesis (EBin (lit "+") (ENum 1%Z) (EPost (EGroup Parenthesis (EPre (lit "-") (ENum 3%Z))) (lit "!")))).
Example C108_expression_case : wf (std_ctx plain_config) C108_tree /\ tell (std_ctx plain_config) plain C108_tree tt = (Errs NegativeValue (lit "Value is negative"), tt) /\ said "1 / (1 + (-3)!)" = (Err NegativeValue, lit "Value is negative").
Proof. split; [apply wfb_sound; vm_compute; reflexivity|]. split; vm_compute; reflexivity. Qed.
