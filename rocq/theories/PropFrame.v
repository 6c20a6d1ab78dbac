(** * C59: a result depends only on the names that occur in the expression *)
From Coq Require Import List NArith ZArith Bool String.
From Verif Require Import ModelBase ModelContext ModelEvaluator ModelText ModelSplit ModelTokenizer ModelDefault ModelParse ModelNum ModelStd
  SpecText ProofText ProofDefault ProofFrame2.
Import ListNotations.

(** Two contexts with the same configuration and operators that agree on the variables, constants and functions named by the words of
    an expression evaluate it alike: the same result, error or panic, with the same effects. *)
Theorem C59_frame : forall V W (c c' : ctx V W) parse splitter dbg s w,
  cfg c = cfg c' -> get_unary c = get_unary c' -> get_binary c = get_binary c' ->
  (forall x, In x (splitter s) -> get_variable c x = get_variable c' x /\ get_constant c x = get_constant c' x /\ get_function c x = get_function c' x) ->
  eval c parse splitter dbg s w = eval c' parse splitter dbg s w.
Proof.
  intros V W [cf gv gc gf gu gb] [cf' gv' gc' gf' gu' gb'] parse splitter dbg s w E1 E2 E3 H. cbn in E1, E2, E3. subst cf' gu' gb'.
  apply text_agrees. apply Forall_forall. exact H.
Qed.
Print Assumptions C59_frame.

(** The same for tokens. *)
Theorem C59_frame_tokens : forall V W (c c' : ctx V W) dbg toks w,
  cfg c = cfg c' -> get_unary c = get_unary c' -> get_binary c = get_binary c' ->
  (forall x, In (TVariable x) toks -> get_variable c x = get_variable c' x) ->
  (forall x, In (TConstant x) toks -> get_constant c x = get_constant c' x) ->
  (forall x, In (TFunction x) toks -> get_function c x = get_function c' x) ->
  eval_tokens c dbg toks w = eval_tokens c' dbg toks w.
Proof.
  intros V W [cf gv gc gf gu gb] [cf' gv' gc' gf' gu' gb'] dbg toks w E1 E2 E3 H1 H2 H3. cbn in E1, E2, E3. subst cf' gu' gb'.
  apply tokens_agree. apply Forall_forall. intros t Ht. destruct t; try exact I; [apply H1|apply H2|apply H3]; exact Ht.
Qed.
Print Assumptions C59_frame_tokens.

(** So setting a variable, adding a constant or registering a function (with its aliases) does not change the result of an expression
    that does not contain the name, in any case for constants and functions. *)
Theorem C59_unused_variable : forall V W (E : env) dbg n v (d d' : dctx V W) r, set_variable E dbg n v d = (Ok r, d') ->
  forall parse splitter s w, ~ In n (splitter s) -> eval (to_ctx E d') parse splitter dbg s w = eval (to_ctx E d) parse splitter dbg s w.
Proof.
  intros V W E dbg n v d d' r H parse splitter s w Hn. destruct (perform_frame E dbg (SetVariable n v) d _ d' H) as (F1 & F2 & F3 & F4 & F5).
  destruct (set_variable_result E dbg n v d _ d' H) as [(k & K & _)|[_ G]]; [discriminate|].
  apply C59_frame; unfold to_ctx; cbn [cfg get_unary get_binary get_constant get_function]; rewrite ?F1, ?F2, ?F3, ?F4, ?F5; try reflexivity.
  intros x Hx. split; [|split; reflexivity]. specialize (G x). unfold to_ctx in G. cbn [get_variable] in G. cbn [get_variable]. rewrite G, str_neq; [reflexivity|]. intros ->. contradiction.
Qed.
Print Assumptions C59_unused_variable.

Lemma unmatched : forall E x n, eq_ignore_case E x n = false -> key_match E x n = false.
Proof. intros E x n H. destruct (key_match E x n) eqn:K; [|reflexivity]. apply key_match_eq in K. congruence. Qed.
Theorem C59_unused_constant : forall V W (E : env) dbg n v (d d' : dctx V W), add_constant E dbg n v d = (Ok tt, d') ->
  forall parse splitter s w, (forall x, In x (splitter s) -> eq_ignore_case E x n = false) ->
  eval (to_ctx E d') parse splitter dbg s w = eval (to_ctx E d) parse splitter dbg s w.
Proof.
  intros V W E dbg n v d d' H parse splitter s w Hn. unfold add_constant in H. destruct (validate dbg n); try discriminate.
  destruct (existsb _ _); [discriminate|]. injection H as <-. apply C59_frame; try reflexivity.
  intros x Hx. split; [reflexivity|]. split; [|reflexivity]. cbn [to_ctx get_constant d_consts]. apply mget_mput_other; [apply unmatched, Hn, Hx|].
  intros k Hk. apply unmatched. specialize (Hn x Hx). destruct (eq_ignore_case E x k) eqn:K; [|reflexivity]. apply key_match_eq in Hk.
  rewrite eq_ic_sym in Hk. rewrite (eq_ic_trans E x k n K Hk) in Hn. discriminate.
Qed.
Print Assumptions C59_unused_constant.

Theorem C59_unused_function : forall V W (E : env) dbg f n (d d' : dctx V W), add_function_as E dbg f n d = (Ok tt, d') ->
  forall parse splitter s w, (forall x a, In x (splitter s) -> In a (fn_aliases f ++ [n]) -> eq_ignore_case E x a = false) ->
  eval (to_ctx E d') parse splitter dbg s w = eval (to_ctx E d) parse splitter dbg s w.
Proof.
  intros V W E dbg f n d d' H parse splitter s w Hn. unfold add_function_as in H. destruct (register E dbg (fn_aliases f) f n (d_funs d)) as [r m] eqn:R.
  injection H as -> <-. destruct (register_ok E dbg _ _ _ _ _ R) as (ext & -> & Hext & _). apply C59_frame; try reflexivity.
  intros x Hx. split; [reflexivity|]. split; [reflexivity|]. cbn [to_ctx get_function d_funs].
  assert (G : mget (key_match E) ext x = None).
  { assert (K : forall k g, In (k, g) ext -> key_match E x k = false) by (intros k g Hin; apply unmatched, (Hn x k Hx), (Hext k g Hin)). clear - K.
    induction ext as [|[k g] ext IH]; [reflexivity|]. rewrite mget_cons, (K k g (or_introl eq_refl)). apply IH. intros k' g' Hin. exact (K k' g' (or_intror Hin)). }
  clear - G. induction (d_funs d) as [|[k g] m IH]; [exact G|]. cbn [app]. rewrite !mget_cons, IH. reflexivity.
Qed.
Print Assumptions C59_unused_function.

(** The hypotheses are met: [x] does not occur in "2 * y1 + max(3, x2)". *)
Definition the_splitter := split_into_tokens default_splitter.
Example C59_case : ~ In (lit "x") (the_splitter (lit "2 * y1 + max(3, x2)")) /\
  fst (set_variable std_env true (lit "x") 5%Z (std plain_config)) = Ok None /\
  fst (add_constant std_env true (lit "Answer") 42%Z (std plain_config)) = Ok tt.
Proof.
  split; [|split; vm_compute; reflexivity].
  intros H. assert (B : existsb (str_eqb (lit "x")) (the_splitter (lit "2 * y1 + max(3, x2)")) = true).
  { apply existsb_exists. exists (lit "x"). split; [exact H|reflexivity]. }
  vm_compute in B. discriminate.
Qed.
