(** * C95: where an error comes from, and what its kind says

    Vocabulary: SpecBlame. *)
From Coq Require Import List NArith ZArith QArith Bool Lia String.
From Verif Require Import ModelBase ModelContext ModelText ModelDefault ModelTokenizer ModelSplit ModelParse ModelEvaluator ModelFloat ModelNum ModelOps ModelComplex ModelDecimal ModelBinary ModelStd
  SpecText SpecExpr SpecTokens SpecLex ProofTok ProofDefault ProofBuild ProofCtx ProofDecimal ProofDecRef ProofBlame PropLex PropBinary SpecBlame.
From Verif Require PropDecimal.
Import ListNotations.

(** An error of the evaluation of tokens is [InvalidInput], [InvalidExpression], or the one that an operation among the tokens
    returned when it was called; and then it was the last one called. *)
Theorem C95_tokens : forall V W (c : ctx V W) dbg toks w k w', eval_tokens c dbg toks w = (Err k, w') ->
  malformed k \/ exists t, present c toks t /\ raises c t k w'.
Proof. intros V W c dbg toks w k w' H. destruct (eval_blamed c dbg toks w k w' H) as [Ho|(t & Hr & Hp)]; [left; exact Ho|right; exists t; split; [exact Hp|exact Hr]]. Qed.
Print Assumptions C95_tokens.

(** Of a text: also [Empty], which says that the text is blank. *)
Theorem C95_text : forall V W (c : ctx V W) parse splitter dbg s w k w', eval c parse splitter dbg s w = (Err k, w') ->
  (k = Empty /\ blank s /\ w' = w) \/ malformed k \/
  exists toks t, tokenize c parse splitter s = Ok toks /\ present c toks t /\ raises c t k w'.
Proof.
  intros V W c parse splitter dbg s w k w' H. unfold eval, bind, lift in H. destruct (tokenize c parse splitter s) as [toks|k1|] eqn:T; [|assert (k1 = k /\ w' = w) as [-> ->] by (split; congruence)|discriminate H].
  - destruct (C95_tokens V W c dbg toks w k w' H) as [Ho|(t & Hp & Hr)]; [auto|]. right. right. exists toks, t. auto.
  - destruct (C13_errors V W c parse splitter s k T) as [[Hb ->]|[[-> _]|[-> _]]]; [auto|right; left; right; reflexivity|right; left; left; reflexivity].
Qed.
Print Assumptions C95_text.

(** ** The contexts of the crate

    [tells E B c]: an error [k] of a text is [Empty] for a blank text, [InvalidInput], [InvalidExpression], or one that the table [B]
    names for an operator or function of the text. *)
Definition tells {V W} (E : env) (B : blame) (c : ctx V W) : Prop := forall parse splitter dbg s w k w', eval c parse splitter dbg s w = (Err k, w') ->
  (k = Empty /\ blank s) \/ malformed k \/ exists toks t, tokenize c parse splitter s = Ok toks /\ present c toks t /\ charged E B t k.
Lemma answers_tells : forall V W E B (c : ctx V W), answers E B c -> tells E B c.
Proof.
  intros V W E B c A parse splitter dbg s w k w' H. destruct (C95_text V W c parse splitter dbg s w k w' H) as [(-> & Hb & _)|[Ho|(toks & t & Ht & Hp & Hr)]]; [auto|auto|].
  right. right. exists toks, t. split; [exact Ht|]. split; [exact Hp|]. exact (A t k w' Hr).
Qed.
Lemma same_answers : forall V W E B (c d : ctx V W), same_operations c d -> answers E B d -> answers E B c.
Proof. intros V W E B c d (Hb & Hu & Hf). apply answers_same; assumption. Qed.

Theorem C95_number_types : (forall t dbg, quiet (int_num t dbg)) /\ (forall fuel, quiet (f64_num fuel)).
Proof. split; [exact quiet_int|exact quiet_f64]. Qed.
Print Assumptions C95_number_types.

Theorem C95_checked : forall V W (n : num V) L (rnd : W -> f64 * W) docs E dbg cf d c, quiet n -> checked_context n L rnd docs E dbg cf = Ok d -> same_operations c (to_ctx E d) ->
  tells E (checked_blame docs) c.
Proof. intros V W n L rnd docs E dbg cf d c Hn Hd Hs. apply answers_tells. eapply same_answers; [exact Hs|]. eapply checked_answers; [exact Hn|exact Hd]. Qed.
Print Assumptions C95_checked.

Theorem C95_unchecked : forall V W (n : num V) L (rnd : W -> f64 * W) E dbg cf d c, quiet n -> unchecked_context n L rnd E dbg cf = Ok d -> same_operations c (to_ctx E d) ->
  tells E unchecked_blame c.
Proof. intros V W n L rnd E dbg cf d c Hn Hd Hs. apply answers_tells. eapply same_answers; [exact Hs|]. eapply unchecked_answers; [exact Hn|exact Hd]. Qed.
Print Assumptions C95_unchecked.

Theorem C95_complex : forall W (L : clib) (rnd : W -> f64 * W) E dbg cf d c, complex_context L rnd E dbg cf = Ok d -> same_operations c (to_ctx E d) -> tells E complex_blame c.
Proof. intros W L rnd E dbg cf d c Hd Hs. apply answers_tells. eapply same_answers; [exact Hs|]. eapply complex_answers. exact Hd. Qed.
Print Assumptions C95_complex.

Theorem C95_decimal : forall D W (L : dlib D) fuel (rnd : W -> f64 * W) E dbg cf d c, decimal_context L fuel rnd E dbg cf = Ok d -> same_operations c (to_ctx E d) -> tells E decimal_blame c.
Proof. intros D W L fuel rnd E dbg cf d c Hd Hs. apply answers_tells. eapply same_answers; [exact Hs|]. eapply decimal_answers. exact Hd. Qed.
Print Assumptions C95_decimal.

(** The operators of the binary context never fail. *)
Theorem C95_binary : forall W dbg0 E cf d c, binary_context (W := W) dbg0 E cf = Ok d -> same_operations c (to_ctx E d) ->
  forall parse splitter dbg s w k w', eval c parse splitter dbg s w = (Err k, w') -> (k = Empty /\ blank s) \/ malformed k.
Proof.
  intros W dbg0 E cf d c Hd Hs parse splitter dbg s w k w' H.
  assert (A : tells E (Blame [] [] []) c) by (apply answers_tells; eapply same_answers; [exact Hs|eapply binary_answers; exact Hd]).
  destruct (A parse splitter dbg s w k w' H) as [X|[X|(toks & t & _ & _ & C)]]; [auto|auto|]. exfalso. destruct t; cbn in C; try contradiction; destruct C as (? & ? & ? & [] & _).
Qed.
Print Assumptions C95_binary.

(** ** What that means for each kind *)
Definition number_context {V W} (c : ctx V W) (E : env) : Prop :=
  (exists (n : num V) L rnd docs dbg cf d, quiet n /\ checked_context (W := W) n L rnd docs E dbg cf = Ok d /\ same_operations c (to_ctx E d)) \/
  (exists (n : num V) L rnd dbg cf d, quiet n /\ unchecked_context (W := W) n L rnd E dbg cf = Ok d /\ same_operations c (to_ctx E d)).
Ltac tabled C := destruct C as (names & kinds & nm & Hi & Hs & He & Hk); cbn [In checked_blame unchecked_blame complex_blame decimal_blame b_binary b_unary b_functions] in Hi;
  repeat (destruct Hi as [Hi|Hi]; [apply pair_equal_spec in Hi; destruct Hi as [<- <-]; cbn [In] in Hk; try (exfalso; repeat (destruct Hk as [Hk|Hk]; [discriminate Hk|]); exact Hk)|]); [..|try destruct Hi].

(** [DivisionByZero] says that the text has a [/] or a [mod]. *)
Theorem C95_division : forall V W (c : ctx V W) E, number_context c E -> forall parse splitter dbg s w w', eval c parse splitter dbg s w = (Err DivisionByZero, w') ->
  exists toks o, tokenize c parse splitter s = Ok toks /\ In (TBinary o) toks /\ (eq_ignore_case E o (lit "/") = true \/ eq_ignore_case E o (lit "mod") = true).
Proof.
  intros V W c E Hc parse splitter dbg s w w' H.
  assert (T : tells E (checked_blame true) c \/ tells E (checked_blame false) c \/ tells E unchecked_blame c).
  { destruct Hc as [(n & L & rnd & docs & dbg' & cf & d & Hn & Hd & Hs)|(n & L & rnd & dbg' & cf & d & Hn & Hd & Hs)].
    - destruct docs; [left|right; left]; eapply C95_checked; eassumption.
    - right; right. eapply C95_unchecked; eassumption. }
  assert (G : forall B, (B = checked_blame true \/ B = checked_blame false \/ B = unchecked_blame) -> tells E B c -> exists toks o, tokenize c parse splitter s = Ok toks /\ In (TBinary o) toks /\ (eq_ignore_case E o (lit "/") = true \/ eq_ignore_case E o (lit "mod") = true)).
  { intros B HB A. destruct (A parse splitter dbg s w _ w' H) as [[X _]|[[X|X]|(toks & t & Ht & Hp & C)]]; try discriminate X.
    assert (S : exists o, t = TBinary o /\ (eq_ignore_case E o (lit "/") = true \/ eq_ignore_case E o (lit "mod") = true)).
    { destruct HB as [-> | [-> | ->]]; destruct t; cbn [charged] in C; try contradiction; tabled C; cbn [In] in Hs; (eexists; split; [reflexivity|]);
        repeat (destruct Hs as [<-|Hs]; [auto|]); destruct Hs. }
    destruct S as (o & -> & S). exists toks, o. split; [exact Ht|]. split; [|exact S]. destruct Hp as [Hp|(Hp & _)]; [exact Hp|]. exfalso. assert (o = star) by congruence. subst o. destruct S as [S|S]; vm_compute in S; discriminate S. }
  destruct T as [T|[T|T]]; (eapply G; [|exact T]); auto.
Qed.
Print Assumptions C95_division.

(** [NegativeValue] says that it has a factorial or a call of [random]. *)
Theorem C95_negative : forall V W (c : ctx V W) E, number_context c E -> forall parse splitter dbg s w w', eval c parse splitter dbg s w = (Err NegativeValue, w') ->
  exists toks x, tokenize c parse splitter s = Ok toks /\ (In (TUnary x) toks /\ eq_ignore_case E x (lit "!") = true \/ In (TFunction x) toks /\ eq_ignore_case E x (lit "random") = true).
Proof.
  intros V W c E Hc parse splitter dbg s w w' H.
  assert (T : tells E (checked_blame true) c \/ tells E (checked_blame false) c \/ tells E unchecked_blame c).
  { destruct Hc as [(n & L & rnd & docs & dbg' & cf & d & Hn & Hd & Hs)|(n & L & rnd & dbg' & cf & d & Hn & Hd & Hs)].
    - destruct docs; [left|right; left]; eapply C95_checked; eassumption.
    - right; right. eapply C95_unchecked; eassumption. }
  assert (G : forall B, (B = checked_blame true \/ B = checked_blame false \/ B = unchecked_blame) -> tells E B c ->
    exists toks x, tokenize c parse splitter s = Ok toks /\ (In (TUnary x) toks /\ eq_ignore_case E x (lit "!") = true \/ In (TFunction x) toks /\ eq_ignore_case E x (lit "random") = true)).
  { intros B HB A. destruct (A parse splitter dbg s w _ w' H) as [[X _]|[[X|X]|(toks & t & Ht & Hp & C)]]; try discriminate X. exists toks.
    assert (S : exists x, (t = TUnary x /\ eq_ignore_case E x (lit "!") = true) \/ (t = TFunction x /\ eq_ignore_case E x (lit "random") = true)).
    { destruct HB as [-> | [-> | ->]]; destruct t; cbn [charged] in C; try contradiction; tabled C; cbn [In] in Hs; eexists;
        repeat (destruct Hs as [<-|Hs]; [eauto|]); destruct Hs. }
    destruct S as (x & S). exists x. split; [exact Ht|].
    destruct S as [[-> S]|[-> S]]; [left|right]; (split; [|exact S]); (destruct Hp as [Hp|(Hp & _)]; [exact Hp|discriminate Hp]). }
  destruct T as [T|[T|T]]; (eapply G; [|exact T]); auto.
Qed.
Print Assumptions C95_negative.

(** No context built by the crate ever returns [Zero], [PositiveValue] or [Unknown]; the decimal and binary ones never
    [DivisionByZero], and no error of a text that is not blank is [Empty]. *)
Definition never (k : errkind) {V W} (c : ctx V W) : Prop := forall parse splitter dbg s (w : W) w', eval c parse splitter dbg s w <> (Err k, w').
Lemma absent : forall V W E B (c : ctx V W) k, tells E B c -> k <> Empty -> k <> InvalidInput -> k <> InvalidExpression -> (forall t : token V, ~ charged E B t k) -> never k c.
Proof.
  intros V W E B c k A H1 H2 H3 H4 parse splitter dbg s w w' H. destruct (A parse splitter dbg s w _ w' H) as [[X _]|[[X|X]|(toks & t & _ & _ & C)]]; try congruence. exact (H4 t C).
Qed.
Ltac absent := (eapply absent; [eassumption|discriminate|discriminate|discriminate|]); intros []; intros C; cbn [charged] in C; try contradiction; tabled C.
Theorem C95_unused : forall V W (c : ctx V W) E,
  (number_context c E -> never Zero c /\ never PositiveValue c /\ never Unknown_ c) /\
  (forall D (L : dlib D) fuel (rnd : W -> f64 * W) dbg cf d c', decimal_context L fuel rnd E dbg cf = Ok d -> same_operations c' (to_ctx E d) ->
     never Zero c' /\ never PositiveValue c' /\ never Unknown_ c' /\ never DivisionByZero c') /\
  (forall L (rnd : W -> f64 * W) dbg cf d c', complex_context L rnd E dbg cf = Ok d -> same_operations c' (to_ctx E d) ->
     never Zero c' /\ never PositiveValue c' /\ never Unknown_ c' /\ never Overflow c' /\ never NAN c').
Proof.
  intros V W c E. split; [|split].
  - intros [(n & L & rnd & docs & dbg & cf & d & Quiet & Hd & Same)|(n & L & rnd & dbg & cf & d & Quiet & Hd & Same)].
    + pose proof (C95_checked _ _ _ _ _ _ _ _ _ _ _ Quiet Hd Same) as A. destruct docs; (split; [|split]); absent.
    + pose proof (C95_unchecked _ _ _ _ _ _ _ _ _ _ Quiet Hd Same) as A. (split; [|split]); absent.
  - intros D L fuel rnd dbg cf d c' Hd Same. pose proof (C95_decimal _ _ _ _ _ _ _ _ _ _ Hd Same) as A. (split; [|split; [|split]]); absent.
  - intros L rnd dbg cf d c' Hd Same. pose proof (C95_complex _ _ _ _ _ _ _ _ Hd Same) as A. (split; [|split; [|split; [|split]]]); absent.
Qed.
Print Assumptions C95_unused.

(** ** Cases *)
Definition std_err (s : string) : option errkind := match fst (eval (std_ctx implicit_config) (parse_int i64) dsplitter true (lit s) tt) with Err k => Some k | _ => None end.
Lemma std_is : checked_context (int_num i64 true) no_libm no_random true std_env true implicit_config = Ok (std implicit_config).
Proof.
  assert (P : n_from_f64 (int_num i64 true) f_PI = Some 3%Z) by (vm_compute; reflexivity). assert (Q : n_from_f64 (int_num i64 true) f_E = Some 2%Z) by (vm_compute; reflexivity).
  unfold std, std_build. rewrite (checked_is (int_num i64 true) no_libm no_random true std_env true _ _ P Q). reflexivity.
Qed.
Lemma std_number : number_context (std_ctx implicit_config) std_env.
Proof.
  left. exists (int_num i64 true), no_libm, no_random, true, true, implicit_config, (std implicit_config).
  split; [apply quiet_int|].
  split; [exact std_is|].
  unfold std_ctx. generalize (to_ctx std_env (std implicit_config)). intros c. split; [|split]; intros q; reflexivity.
Qed.
Example C95_case : number_context (std_ctx implicit_config) std_env /\
  std_err "1 / (3 - 3)" = Some DivisionByZero /\ std_err "7 MOD 0" = Some DivisionByZero /\ std_err "(0 - 3)!" = Some NegativeValue /\ std_err "9223372036854775807 + 1" = Some Overflow /\
  std_err "3037000500 (3037000500)" = Some Overflow /\ std_err "csc(0)" = Some NAN /\ std_err "max(1)" = Some InvalidArgumentCount /\ std_err "random(2, 1)" = Some InvalidInput /\
  std_err "1 $ 2" = Some InvalidInput /\ std_err "1 + * 2" = Some InvalidExpression /\ std_err "  " = Some Empty.
Proof.
  split; [exact std_number|].
  repeat (split; [vm_compute; reflexivity|]). vm_compute. reflexivity.
Qed.
(** Decimals: a division by zero is reported as an overflow. *)
Example C95_decimal_case : PropDecimal.shown (eval_tokens PropDecimal.ref_ctx true [TNumber (PropDecimal.num 1 0); TBinary (lit "/"); TNumber (PropDecimal.num 0 0)] tt) = Err Overflow.
Proof. vm_compute. reflexivity. Qed.
