(** * C79: errors and tokens as the API shows them *)
From Coq Require Import List NArith ZArith Bool Arith Lia String.
From Verif Require Import ModelBase ModelContext ModelEvaluator ModelTokenizer ModelSplit ModelParse ModelNum ModelServer ModelStd ModelError PropLex.
From Verif Require PropServer2.
Import ListNotations.

(** The message of an error made from a kind tells the kind; one made from a kind and an inner error has that kind, the inner
    error's message, and gives the inner error back. *)
Theorem C79_messages : forall X (show : X -> str) (k k' : errkind) (x : X),
  (error_display show (error_from k) = error_display show (error_from k') <-> k = k') /\ error_display show (error_from k) <> [] /\
  error_kind (@error_from X k) = k /\ into_inner (@error_from X k) = None /\
  error_kind (error_new k x) = k /\ error_display show (error_new k x) = show x /\ into_inner (error_new k x) = Some x /\
  error_kind (error_other x) = Unknown_ /\ error_display show (error_other x) = show x.
Proof.
  intros X show k k' x. repeat match goal with |- _ /\ _ => split end; try reflexivity.
  - split; [|intros ->; reflexivity]. destruct k, k'; try reflexivity; intros H; vm_compute in H; discriminate.
  - destruct k; discriminate.
Qed.
Print Assumptions C79_messages.

(** The table of messages. *)
Definition message_table : list (errkind * string) :=
  [(Overflow, "Value has overflow"); (Zero, "Value is zero"); (NAN, "Value is 'not a number'"); (InvalidInput, "Invalid input");
   (InvalidArgumentCount, "Invalid number of arguments"); (DivisionByZero, "Cannot divide by zero"); (NegativeValue, "Value is negative");
   (PositiveValue, "Value is positive"); (Empty, "Empty input"); (InvalidExpression, "Invalid expression"); (Unknown_, "Unknown error")]%string.
Theorem C79_message_table : forall X (show : X -> str) (k : errkind),
  exists m, In (k, m) message_table /\ error_display show (error_from k) = lit m.
Proof. intros X show k. destruct k; eexists; (split; [cbn; tauto|reflexivity]). Qed.
Print Assumptions C79_message_table.

(** Errors are compared by their kinds alone: [==] is an equivalence relation, coarser than having the same message. *)
Theorem C79_equality : forall X (a b : error X), error_eqb a b = true <-> error_kind a = error_kind b.
Proof. intros X a b. unfold error_eqb. destruct (error_kind a), (error_kind b); split; intros H; try reflexivity; discriminate. Qed.
Print Assumptions C79_equality.
Theorem C79_equality_ignores_messages_refuted : exists a b : error str, error_eqb a b = true /\ error_display (fun s => s) a <> error_display (fun s => s) b.
Proof. exists (error_new InvalidInput (lit "Variable 'x' not found")), (error_from InvalidInput). split; [reflexivity|discriminate]. Qed.
Print Assumptions C79_equality_ignores_messages_refuted.

(** Tokens with the same text are the same token, if that is so for numbers. *)
Theorem C79_token_text : forall V (show : V -> str), (forall x y, show x = show y -> x = y) ->
  forall t t', token_display show t = token_display show t' -> t = t'.
Proof.
  intros V show Inj t t' H.
  assert (E : forall a b c : str, a ++ c = b ++ c -> a = b) by (intros a b c; apply app_inv_tail).
  destruct t as [v|x|x|x|x|x|n|c|c|x|], t' as [v'|x'|x'|x'|x'|x'|n'|c'|c'|x'|]; cbn [token_display] in H; try reflexivity;
    try (exfalso; cbn in H; discriminate H); apply app_inv_head in H; try (apply E in H).
  - f_equal. apply Inj. exact H.
  - congruence.
  - congruence.
  - congruence.
  - congruence.
  - congruence.
  - f_equal. set (b := (Z.of_nat n + Z.of_nat n' + 1)%Z).
    assert (P : forall m, (0 <= m < b)%Z -> parse_int (Ity true (b + 1)) (show_int m) = Some m).
    { intros m Hm. apply PropServer2.C63_integers_round_trip; [simpl; lia|]. unfold SpecOps.fits. cbn [ModelNum.signed bits]. replace (b + 1 - 1)%Z with b by ring.
      pose proof (Z.pow_gt_lin_r 2 b ltac:(lia) ltac:(lia)). lia. }
    pose proof (P (Z.of_nat n) ltac:(lia)) as P1. rewrite H, (P (Z.of_nat n') ltac:(lia)) in P1. injection P1. lia.
  - congruence.
  - congruence.
  - congruence.
Qed.
Print Assumptions C79_token_text.

(** Every token is of exactly one of the eleven sorts, and its text begins with the name of its sort. *)
Definition sorts {V} : list ((token V -> bool) * string) :=
  [(is_number, "Number("); (is_variable, "Variable("); (is_constant, "Constant("); (is_function, "Function("); (is_binary_operator, "BinaryOperator('");
   (is_unary_operator, "UnaryOperator('"); (is_arg_count, "ArgCount("); (is_grouping_open, "ParenthesisOpen('"); (is_grouping_close, "ParenthesisClose('");
   (is_unknown, "Unknown("); (is_comma, "Comma")]%string.
Theorem C79_token_sorts : forall V (show : V -> str) (t : token V),
  exists p name before after, sorts = before ++ (p, name) :: after /\ p t = true /\ (forall q, In q (map fst (before ++ after)) -> q t = false) /\
  (forall q other, In (q, other) sorts -> q t = true <-> exists rest, token_display show t = lit other ++ rest).
Proof.
  intros V show t.
  assert (A : exists n p name, nth_error (@sorts V) n = Some (p, name) /\ p t = true /\ (forall q, In q (map fst (firstn n sorts ++ skipn (S n) sorts)) -> q t = false)).
  { destruct t; [exists 0|exists 1|exists 2|exists 3|exists 4|exists 5|exists 6|exists 7|exists 8|exists 9|exists 10]; eexists; eexists;
      (split; [reflexivity|]); (split; [reflexivity|]); intros q Hq; cbn in Hq; repeat (destruct Hq as [<-|Hq]; [reflexivity|]); destruct Hq. }
  destruct A as (n & p & name & A1 & A2 & A3). exists p, name, (firstn n sorts), (skipn (S n) sorts). split; [|split; [exact A2|split; [exact A3|]]].
  - symmetry. apply nth_error_split in A1. destruct A1 as (l1 & l2 & -> & <-). rewrite firstn_app, Nat.sub_diag, firstn_all. cbn [firstn]. rewrite app_nil_r. f_equal.
    change (S (List.length l1)) with (1 + List.length l1). rewrite Nat.add_comm, skipn_app, skipn_all2 by lia. replace (List.length l1 + 1 - List.length l1) with 1 by lia. reflexivity.
  - clear. intros q other Hq. unfold sorts in Hq. cbn [In] in Hq.
    assert (S : forall a b : Prop, (a /\ b) \/ (~ a /\ ~ b) -> (a <-> b)) by tauto. apply S. clear S.
    repeat (destruct Hq as [Hq|Hq]; [injection Hq as <- <-; destruct t; first [left; split; [reflexivity|eexists; reflexivity] | right; split; [discriminate|intros (r & Hr); cbn in Hr; discriminate Hr]]|]). destruct Hq.
Qed.
Print Assumptions C79_token_sorts.

Example C79_case : error_display (fun s : str => s) (error_from DivisionByZero) = lit "Cannot divide by zero" /\
  match std_tokens "2*max(4, #)" with Ok ts => map (token_display show_int) ts | _ => [] end =
    map lit ["Number(2)"; "BinaryOperator('*')"; "Function(max)"; "ParenthesisOpen('(')"; "Number(4)"; "Comma"; "Unknown(#)"; "ParenthesisClose(')')"]%string.
Proof. split; vm_compute; reflexivity. Qed.
