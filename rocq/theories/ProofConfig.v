(** * Proofs about configurations *)
From Coq Require Import String List NArith Bool Arith Lia.
From Verif Require Import ModelBase ModelContext ModelText ModelDefault ModelTokenizer ModelEvaluator ModelNum ModelOps
  SpecExpr SpecTokens SpecGrammar SpecConfig.
Import ListNotations.
Open Scope string_scope.
Open Scope list_scope.
Open Scope nat_scope.

(** ** Builders *)
Definition apply_setting (cf : config) (s : setting) : config :=
  match s with
  | ImplicitMul b => config_with_implicit_mul cf b
  | ComplexNumber b => config_with_complex_number cf b
  | CustomCall b => config_with_custom_function_call cf b
  | Group g => config_with_grouping cf g
  end.

Lemma last_given_snoc : forall l o, last_given (l ++ [o]) = match o with Some b => b | None => last_given l end.
Proof.
  induction l as [|x l IH]; intros o; [destruct o; reflexivity|]. cbn [app last_given]. rewrite existsb_app, IH.
  destruct o as [b|]; cbn.
  - rewrite orb_true_r. reflexivity.
  - rewrite orb_false_r. reflexivity.
Qed.

Lemma settings_last : forall cf0 l, implicit_mul cf0 = false -> complex_number cf0 = false -> custom_function_call cf0 = false ->
  let cf := fold_left apply_setting l cf0 in
  implicit_mul cf = last_given (map implicit_choice l) /\ complex_number cf = last_given (map complex_choice l) /\
  custom_function_call cf = last_given (map custom_choice l).
Proof.
  intros cf0 l H1 H2 H3. cbv zeta. induction l as [|s l IH] using rev_ind; [cbn; auto|].
  rewrite fold_left_app, !map_app. cbn [map fold_left]. rewrite !last_given_snoc. destruct IH as (I1 & I2 & I3).
  destruct s; cbn; auto.
Qed.

(** ** Evaluation of tokens *)
Section Eval.
Context {V W : Type}.
Variable c : ctx V W.
Variable dbg : bool.
Variables cf cf' : config.
Notation tok := (token V).
Notation c1 := (configured cf c).
Notation c2 := (configured cf' c).

Lemma pop_operators_cfg : forall op ops out, pop_operators c1 op out ops = pop_operators c2 op out ops.
Proof. reflexivity. Qed.
Lemma close_loop_cfg : forall cl ops out argc, close_loop c1 cl out ops argc = close_loop c2 cl out ops argc.
Proof. reflexivity. Qed.

Definition next_paren (next : option tok) : bool := match next with Some n => contains_symbol n 40%N | None => false end.

Lemma yard_step_cfg : forall toks pos t next y,
  (is_function t = true -> custom_function_call cf = custom_function_call cf' \/ next_paren next = true) ->
  yard_step c1 dbg toks pos t next y = yard_step c2 dbg toks pos t next y.
Proof.
  intros toks pos t next y H. destruct t; cbn [yard_step]; try reflexivity.
  fold (next_paren next). cbn [cfg configured]. destruct (H eq_refl) as [-> | ->]; [reflexivity|]. rewrite !andb_false_r. reflexivity.
Qed.

Lemma push_implicit_cfg : forall t next y,
  (implicit_mul cf = implicit_mul cf' \/ match next with Some n => multiplies t n | None => false end = false) ->
  push_implicit c1 t next y = push_implicit c2 t next y.
Proof.
  intros t next y [H|H]; unfold push_implicit, implicit_here; cbn [cfg configured]; [rewrite H; reflexivity|].
  destruct t, next as [[]|]; cbn in H; try discriminate H; rewrite !andb_false_r; reflexivity.
Qed.

Lemma yard_loop_cfg : forall toks rest pos y,
  (implicit_mul cf = implicit_mul cf' \/ juxtapositions rest = 0) ->
  (custom_function_call cf = custom_function_call cf' \/ parenthesised rest) ->
  yard_loop c1 dbg toks pos rest y = yard_loop c2 dbg toks pos rest y.
Proof.
  intros toks rest. induction rest as [|t rest IH]; intros pos y Hi Hc; [reflexivity|]. cbn [yard_loop].
  rewrite yard_step_cfg.
  - destruct (yard_step c2 dbg toks pos t (hd_error rest) y) as [y'| |]; cbn [rbind]; try reflexivity.
    rewrite push_implicit_cfg.
    + apply IH.
      * destruct Hi as [Hi|Hi]; [left; exact Hi|right]. destruct rest as [|b rest]; [reflexivity|]. cbn [juxtapositions] in Hi |- *. lia.
      * destruct Hc as [Hc|Hc]; [left; exact Hc|right]. destruct t; cbn in Hc; tauto.
    + destruct Hi as [Hi|Hi]; [left; exact Hi|right]. destruct rest as [|b rest]; [reflexivity|]. cbn [juxtapositions hd_error] in Hi |- *.
      destruct (multiplies t b); [lia|reflexivity].
  - intros Hf. destruct Hc as [Hc|Hc]; [left; exact Hc|right]. destruct t; try discriminate Hf. cbn in Hc. destruct Hc as ((r & ->) & _). reflexivity.
Qed.

Lemma rpn_loop_cfg : forall rpn values ac w, rpn_loop c1 dbg rpn values ac w = rpn_loop c2 dbg rpn values ac w.
Proof. reflexivity. Qed.

Lemma rest_cfg : forall r w,
  bind (lift r) (fun rpn => bind (rpn_loop c1 dbg rpn [] None) (fun values => match values with [v] => ret v | _ => fail InvalidExpression end)) w =
  bind (lift r) (fun rpn => bind (rpn_loop c2 dbg rpn [] None) (fun values => match values with [v] => ret v | _ => fail InvalidExpression end)) w.
Proof. reflexivity. Qed.

Lemma eval_tokens_cfg : forall toks w,
  (implicit_mul cf = implicit_mul cf' \/ juxtapositions toks = 0) ->
  (custom_function_call cf = custom_function_call cf' \/ parenthesised toks) ->
  eval_tokens c1 dbg toks w = eval_tokens c2 dbg toks w.
Proof.
  intros toks w Hi Hc. unfold eval_tokens, infix_to_rpn. rewrite (yard_loop_cfg toks toks 0 _ Hi Hc). apply rest_cfg.
Qed.

(** Turning custom calls on only turns errors into something else. *)
Lemma yard_loop_custom : implicit_mul cf = implicit_mul cf' -> custom_function_call cf = false ->
  forall toks rest pos y, yard_loop c1 dbg toks pos rest y = yard_loop c2 dbg toks pos rest y \/ yard_loop c1 dbg toks pos rest y = Err InvalidInput.
Proof.
  intros Hi Hc toks rest. induction rest as [|t rest IH]; intros pos y; [left; reflexivity|]. cbn [yard_loop].
  assert (D : (is_function t = true -> custom_function_call cf = custom_function_call cf' \/ next_paren (hd_error rest) = true) \/
              yard_step c1 dbg toks pos t (hd_error rest) y = Err InvalidInput).
  { destruct t; try (left; intros; discriminate). destruct (next_paren (hd_error rest)) eqn:En; [left; auto|right].
    cbn [yard_step]. fold (next_paren (hd_error rest)). rewrite En. cbn [cfg configured]. rewrite Hc. reflexivity. }
  destruct D as [D| ->]; [|right; reflexivity]. rewrite (yard_step_cfg _ _ _ _ _ D).
  destruct (yard_step c2 dbg toks pos t (hd_error rest) y) as [y'| |]; cbn [rbind]; try (left; reflexivity).
  rewrite push_implicit_cfg by (left; exact Hi). apply IH.
Qed.

Lemma eval_tokens_custom : implicit_mul cf = implicit_mul cf' -> custom_function_call cf = false ->
  forall toks w, eval_tokens c1 dbg toks w = eval_tokens c2 dbg toks w \/ eval_tokens c1 dbg toks w = (Err InvalidInput, w).
Proof.
  intros Hi Hc toks w. destruct (yard_loop_custom Hi Hc toks toks 0 (Yard [] [] [] [])) as [E|E].
  - left. unfold eval_tokens, infix_to_rpn. rewrite E. apply rest_cfg.
  - right. unfold eval_tokens, infix_to_rpn. rewrite E. reflexivity.
Qed.
End Eval.

(** Without custom calls a name without its parenthesis is refused. *)
Lemma yard_loop_refuses : forall V W (c : ctx V W) dbg, custom_function_call (cfg c) = false ->
  forall toks f rest pre pos y, next_paren (V := V) (hd_error rest) = false ->
  forall y', yard_loop c dbg toks pos (pre ++ TFunction f :: rest) y <> Ok y'.
Proof.
  intros V W c dbg Hc toks f rest pre. induction pre as [|t pre IH]; intros pos y Hn y'; cbn [app yard_loop].
  - cbn [yard_step]. fold (next_paren (hd_error rest)). rewrite Hn, Hc. discriminate.
  - destruct (yard_step _ _ _ _ _ _ _); cbn [rbind]; try discriminate. apply IH. exact Hn.
Qed.

(** ** Tokenizing *)
Section Tok.
Context {V W : Type}.
Variable c : ctx V W.
Variable parse : str -> option V.
Variables cf cf' : config.
Notation c1 := (configured cf c).
Notation c2 := (configured cf' c).

Lemma tokenize_loop_cfg : forall raw prev, (complex_number cf = complex_number cf' \/ ~ In (lit "i") raw) ->
  tokenize_loop c1 parse prev raw = tokenize_loop c2 parse prev raw.
Proof.
  fix IH 1. intros raw prev H. destruct raw as [|s rest]; [reflexivity|]. cbn [tokenize_loop].
  assert (Hr : complex_number cf = complex_number cf' \/ ~ In (lit "i") rest).
  { destruct H as [H|H]; [left; exact H|right]. intros Hin. apply H. right. exact Hin. }
  pose proof (IH rest (Some s) Hr) as IHr.
  destruct (parse s) as [n|].
  - destruct rest as [|im rest']; [reflexivity|]. cbn [cfg configured].
    assert (Hr' : complex_number cf = complex_number cf' \/ ~ In (lit "i") rest').
    { destruct Hr as [Hr|Hr]; [left; exact Hr|right]. intros Hin. apply Hr. right. exact Hin. }
    rewrite (IH rest' (Some im) Hr'), IHr. clear IH IHr.
    destruct Hr as [-> | Hr]; [reflexivity|]. destruct (str_eqb im (lit "i")) eqn:E; [|rewrite !andb_false_r; reflexivity].
    exfalso. apply Hr. left. revert E. clear. revert im. induction (lit "i") as [|a l IHl]; intros [|x im]; cbn; try discriminate; auto.
    intros H. apply andb_prop in H. destruct H as [H1 H2]. apply N.eqb_eq in H1. subst. f_equal. apply IHl. exact H2.
  - rewrite IHr. reflexivity.
Qed.

Lemma tokenize_cfg : forall splitter s, (complex_number cf = complex_number cf' \/ ~ In (lit "i") (splitter s)) ->
  tokenize c1 parse splitter s = tokenize c2 parse splitter s.
Proof. intros splitter s H. unfold tokenize. destruct (trim s); [reflexivity|]. apply tokenize_loop_cfg. exact H. Qed.
End Tok.

(** ** Building a context *)
Definition reconfigure {V W} (cf : config) (d : dctx V W) : dctx V W := DCtx (d_vars d) (d_consts d) (d_funs d) (d_unary d) (d_binary d) cf.
Definition indifferent {V W} (s : dctx V W -> res unit * dctx V W) : Prop :=
  (forall d, d_config (snd (s d)) = d_config d) /\ forall cf d, s (reconfigure cf d) = (fst (s d), reconfigure cf (snd (s d))).

Lemma build_cfg : forall V W (steps : list (dctx V W -> res unit * dctx V W)), Forall indifferent steps -> forall d cf,
  build steps (reconfigure cf d) = match build steps d with Ok d' => Ok (reconfigure cf d') | Err k => Err k | Panic => Panic end /\
  (forall d', build steps d = Ok d' -> d_config d' = d_config d).
Proof.
  intros V W steps H. induction H as [|s steps Hs H IH]; intros d cf; [cbn; split; [reflexivity|intros d' E; inversion E; reflexivity]|].
  destruct Hs as (H1 & H2). cbn [build]. rewrite H2. specialize (H1 d). destruct (s d) as [r d1]. cbn [fst snd] in *.
  destruct r; try (split; [reflexivity|intros; discriminate]). destruct (IH d1 cf) as (I1 & I2). split; [exact I1|].
  intros d' E. rewrite <- H1. apply I2. exact E.
Qed.

Section Steps.
Context {V W : Type}.
Variable E : env.
Variable dbg : bool.
Lemma ind_fun : forall f : func V W, indifferent (add_function E dbg f).
Proof. intros f. unfold add_function, add_function_as. split; intros; cbn [d_funs reconfigure]; destruct (register _ _ _ _ _ _); reflexivity. Qed.
Lemma ind_un : forall f : ufunc V W, indifferent (add_unary_function E dbg f).
Proof. intros f. unfold add_unary_function, add_unary_function_as. split; intros; cbn [d_unary reconfigure]; destruct (register _ _ _ _ _ _); reflexivity. Qed.
Lemma ind_bin : forall f : bfunc V W, indifferent (add_binary_function E dbg f).
Proof. intros f. unfold add_binary_function, add_binary_function_as. split; intros; cbn [d_binary reconfigure]; destruct (register _ _ _ _ _ _); reflexivity. Qed.
Lemma ind_const : forall n v, indifferent (add_constant (V := V) (W := W) E dbg n v).
Proof. intros n v. unfold add_constant. split; intros; cbn [d_vars reconfigure]; destruct (validate dbg n); try reflexivity; destruct (existsb _ _); reflexivity. Qed.
Lemma ind_panic : indifferent (fun d : dctx V W => (Panic, d)).
Proof. split; reflexivity. Qed.
End Steps.

Lemma built_alike : forall V W (E : env) (steps : list (dctx V W -> res unit * dctx V W)) cf cf' d, Forall indifferent steps ->
  build steps (with_config cf) = Ok d ->
  cfg (to_ctx E d) = cf /\ exists d', build steps (with_config cf') = Ok d' /\ to_ctx E d' = configured cf' (to_ctx E d).
Proof.
  intros V W E steps cf cf' d HS H. destruct (build_cfg _ _ _ HS (with_config cf) cf') as (H1 & H2).
  rewrite H in H1. split; [apply (H2 d H)|]. exists (reconfigure cf' d). split; [exact H1|reflexivity].
Qed.
