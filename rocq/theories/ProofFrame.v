(** * Evaluation depends on the context only through the entries of the names that occur *)
From Coq Require Import List NArith Bool Arith Lia.
From Verif Require Import ModelBase ModelContext ModelEvaluator SpecExpr SpecFrame.
Import ListNotations.

Section Frame.
Context {V W : Type}.
Variables c c' : ctx V W.
Variable dbg : bool.
Hypothesis Hcfg : cfg c = cfg c'.
Hypothesis Hstar : implicit_mul (cfg c) = true -> get_binary c star = get_binary c' star.
Notation tok := (token V).
Notation like := (alike c c').
Notation likes := (Forall2 like).

Definition like_res (r r' : res (list tok)) : Prop :=
  match r, r' with Ok a, Ok a' => likes a a' | Err k, Err k' => k = k' | Panic, Panic => True | _, _ => False end.
Definition like_yard (y y' : yard (V := V)) : Prop :=
  likes (y_out y) (y_out y') /\ likes (y_ops y) (y_ops y') /\ y_argc y = y_argc y' /\ y_grp y = y_grp y'.
Definition like_yres (r r' : res (yard (V := V))) : Prop :=
  match r, r' with Ok a, Ok a' => like_yard a a' | Err k, Err k' => k = k' | Panic, Panic => True | _, _ => False end.

Lemma likes_snoc : forall a a' t t', likes a a' -> like t t' -> likes (a ++ [t]) (a' ++ [t']).
Proof. intros. apply Forall2_app; auto. Qed.

Lemma likes_nth : forall a a' i, likes a a' ->
  match nth_error a i, nth_error a' i with Some t, Some t' => like t t' | None, None => True | _, _ => False end.
Proof.
  intros a a' i H. revert i. induction H as [|t t' a a' Ht H IH]; intros [|i]; simpl; auto. apply IH.
Qed.

Lemma push_number_like : forall t t' y y', like t t' -> like_yard y y' -> like_yard (push_number c t y) (push_number c' t' y').
Proof.
  intros t t' [o p a g] [o' p' a' g'] Ht (H1 & H2 & H3 & H4). simpl in *. subst. unfold push_number. simpl.
  pose proof (likes_snoc _ _ _ _ H1 Ht) as H1'. inversion H2 as [|x x' p1 p1' Hx Hp]; subst; [repeat split; auto|].
  inversion Hx; subst; try (repeat split; auto; fail).
  match goal with h : get_unary c _ = get_unary c' _ |- _ => rewrite h end.
  destruct (is_some _); repeat split; simpl; auto. apply likes_snoc; auto.
Qed.

Lemma push_unary_like : forall x x' y y', get_unary c x = get_unary c' x' -> like_yard y y' ->
  like_yres (push_unary_function c x y) (push_unary_function c' x' y').
Proof.
  intros x x' [o p a g] [o' p' a' g'] Hx (H1 & H2 & H3 & H4). simpl in *. subst. unfold push_unary_function. rewrite <- Hx.
  destruct (get_unary c x) as [u|] eqn:Eu; simpl; auto. destruct (uf_notation u); simpl.
  - repeat split; simpl; auto. constructor; auto. constructor. congruence.
  - inversion H1; subst; simpl; auto. repeat split; simpl; auto.
    constructor; auto. apply likes_snoc; auto. constructor. congruence.
Qed.

Lemma pop_operators_like : forall op ops ops' out out', likes ops ops' -> likes out out' ->
  likes (fst (pop_operators c op out ops)) (fst (pop_operators c' op out' ops')) /\
  likes (snd (pop_operators c op out ops)) (snd (pop_operators c' op out' ops')).
Proof.
  intros op ops ops' out out' H. revert out out'. induction H as [|t t' ops ops' Ht H IH]; intros out out' Ho; simpl; auto.
  pose proof (Forall2_cons _ _ Ht H) as Hc. pose proof (likes_snoc _ _ _ _ Ho Ht) as Ho'.
  inversion Ht; subst; simpl; auto.
  match goal with h : get_binary c _ = get_binary c' _ |- _ => rewrite <- h end.
  destruct (get_binary c x) as [f|]; simpl; auto. destruct (pop_condition f op); simpl; auto.
Qed.

Lemma push_binary_like : forall x x' y y', get_binary c x = get_binary c' x' -> like_yard y y' ->
  like_yres (push_binary_function c x y) (push_binary_function c' x' y').
Proof.
  intros x x' [o p a g] [o' p' a' g'] Hx (H1 & H2 & H3 & H4). simpl in *. subst. unfold push_binary_function. simpl.
  rewrite <- Hx. destruct (get_binary c x) as [f|] eqn:Ef; simpl; auto.
  destruct (pop_operators_like f p p' o o' H2 H1) as [G1 G2].
  destruct (pop_operators c f o p) as [a1 b1], (pop_operators c' f o' p') as [a2 b2]. simpl in *. repeat split; simpl; auto.
  constructor; auto. constructor. congruence.
Qed.

Lemma close_loop_like : forall close ops ops' out out' argc, likes ops ops' -> likes out out' ->
  match close_loop c close out ops argc, close_loop c' close out' ops' argc with
  | Ok (a, b, n), Ok (a', b', n') => likes a a' /\ likes b b' /\ n = n'
  | Err k, Err k' => k = k' | Panic, Panic => True | _, _ => False end.
Proof.
  intros close ops ops' out out' argc H. revert out out'. induction H as [|t t' ops ops' Ht H IH]; intros out out' Ho; simpl; auto.
  pose proof (likes_snoc _ _ _ _ Ho Ht) as Ho'.
  inversion Ht; subst; simpl; try (apply IH; assumption). unfold get_group_symbol.
  destruct (grouping_new s) as [g|]; simpl; auto. destruct (char_eqb (grouping_close g) close); simpl; auto.
  destruct argc as [|n argc]; [auto|]. inversion H as [|x x' p1 p1' Hx Hp]; subst; [auto|].
  inversion Hx; subst; auto. split; [|auto]. apply Forall2_app; [exact Ho|]. constructor; [constructor|]. constructor; [exact Hx|constructor].
Qed.

Lemma comma_loop_like : forall ops ops' out out', likes ops ops' -> likes out out' ->
  match comma_loop out ops, comma_loop out' ops' with
  | Ok (a, b), Ok (a', b') => likes a a' /\ likes b b'
  | Err k, Err k' => k = k' | Panic, Panic => True | _, _ => False end.
Proof.
  intros ops ops' out out' H. revert out out'. induction H as [|t t' ops ops' Ht H IH]; intros out out' Ho; simpl; auto.
  pose proof (Forall2_cons _ _ Ht H) as Hc. pose proof (likes_snoc _ _ _ _ Ho Ht) as Ho'.
  inversion Ht; subst; simpl; auto; apply IH; assumption.
Qed.

Lemma tok_at_like : forall toks toks' i p, likes toks toks' -> (forall t t', like t t' -> p t = p t') ->
  tok_at toks i p = tok_at toks' i p.
Proof.
  intros toks toks' i p H Hp. pose proof (likes_nth _ _ i H) as G. unfold tok_at.
  destruct (nth_error toks i), (nth_error toks' i); auto; contradiction.
Qed.
Lemma like_open : forall t t', like t t' -> is_grouping_open t = is_grouping_open t'.
Proof. intros t t' H. inversion H; reflexivity. Qed.
Lemma like_close : forall t t', like t t' -> is_grouping_close t = is_grouping_close t'.
Proof. intros t t' H. inversion H; reflexivity. Qed.
Lemma like_function : forall t t', like t t' -> is_function t = is_function t'.
Proof. intros t t' H. inversion H; reflexivity. Qed.
Lemma like_symbol : forall t t' s, like t t' -> contains_symbol t s = contains_symbol t' s.
Proof. intros t t' s H. inversion H; reflexivity. Qed.

Lemma check_comma_like : forall toks toks' grp pos, likes toks toks' ->
  check_comma_position dbg toks grp pos = check_comma_position dbg toks' grp pos.
Proof.
  intros toks toks' grp pos H. unfold check_comma_position.
  rewrite (tok_at_like toks toks' (pos - 1) _ H like_open), (tok_at_like toks toks' (pos + 1) _ H like_close).
  destruct grp as [|[|l] grp]; try reflexivity. rewrite (tok_at_like toks toks' l _ H like_function). reflexivity.
Qed.

Definition like_opt (o o' : option tok) : Prop := match o, o' with Some t, Some t' => like t t' | None, None => True | _, _ => False end.

Lemma yard_step_like : forall toks toks' pos t t' next next' y y', likes toks toks' -> like t t' -> like_opt next next' ->
  like_yard y y' -> like_yres (yard_step c dbg toks pos t next y) (yard_step c' dbg toks' pos t' next' y').
Proof.
  intros toks toks' pos t t' next next' y y' HT Ht Hn Hy. inversion Ht; subst; cbn [yard_step]; try (simpl; reflexivity).
  - apply (push_number_like _ _ y y' Ht Hy).
  - apply (push_number_like _ _ y y' Ht Hy).
  - apply (push_number_like _ _ y y' Ht Hy).
  - rewrite <- Hcfg. assert (En : match next with Some n => contains_symbol n 40%N | None => false end
                                = match next' with Some n => contains_symbol n 40%N | None => false end).
    { destruct next, next'; simpl in Hn; try contradiction; auto. apply like_symbol. exact Hn. }
    rewrite En. destruct (negb _ && negb _); simpl; auto. destruct Hy as (H1 & H2 & H3 & H4). repeat split; simpl; auto. congruence.
  - apply push_binary_like; assumption.
  - apply push_unary_like; assumption.
  - destruct Hy as (H1 & H2 & H3 & H4). rewrite H3, H4. repeat split; simpl; auto.
  - unfold step_close. rewrite <- Hcfg. destruct Hy as (H1 & H2 & H3 & H4). rewrite <- H3, <- H4.
    pose proof (close_loop_like s _ _ _ _ (y_argc y) H2 H1) as G.
    destruct (close_loop c s (y_out y) (y_ops y) (y_argc y)) as [[[oa ob] on]|k|],
      (close_loop c' s (y_out y') (y_ops y') (y_argc y)) as [[[oa' ob'] on']|k'|]; try contradiction; simpl; auto.
    destruct G as (G1 & G2 & ->).
    assert (Gy : like_yard (Yard oa ob on' (match on' with [] => y_grp y | _ => tl (y_grp y) end))
                           (Yard oa' ob' on' (match on' with [] => y_grp y | _ => tl (y_grp y) end))) by (repeat split; auto).
    destruct (1 <? pos)%nat; [|exact Gy]. pose proof (likes_nth _ _ (pos - 1) HT) as N1. pose proof (likes_nth _ _ (pos - 2) HT) as N2.
    destruct (nth_error toks (pos - 1)) as [t1|], (nth_error toks' (pos - 1)) as [t1'|]; try contradiction; [|exact I].
    inversion N1; subst; try exact Gy.
    destruct (match get_group_open_for (cfg c) s with Some v => char_eqb v s0 | None => false end); [|exact Gy].
    destruct (nth_error toks (pos - 2)) as [t2|], (nth_error toks' (pos - 2)) as [t2'|]; try contradiction; [|exact I].
    rewrite (like_function _ _ N2). destruct (negb (is_function t2')); [reflexivity|exact Gy].
  - destruct Hy as (H1 & H2 & H3 & H4). rewrite H4, (check_comma_like _ _ _ _ HT).
    destruct (check_comma_position dbg toks' (y_grp y') pos); simpl; auto. unfold push_comma. rewrite H3, H4.
    destruct (y_argc y') as [|n argc]; simpl; auto. pose proof (comma_loop_like _ _ _ _ H2 H1) as G.
    destruct (comma_loop (y_out y) (y_ops y)) as [[oa ob]|k|], (comma_loop (y_out y') (y_ops y')) as [[oa1 ob1]|k1|]; try contradiction; simpl; auto.
    destruct G. repeat split; auto.
Qed.

Lemma implicit_like : forall t t' next next', like t t' -> like_opt next next' -> implicit_here c t next = implicit_here c' t' next'.
Proof.
  intros t t' next next' Ht Hn. unfold implicit_here. rewrite Hcfg. f_equal.
  destruct next as [n|], next' as [n'|]; simpl in Hn; try contradiction; [|inversion Ht; reflexivity].
  inversion Ht; inversion Hn; reflexivity.
Qed.

Lemma push_implicit_like : forall t t' next next' y y', like t t' -> like_opt next next' -> like_yard y y' ->
  like_yard (push_implicit c t next y) (push_implicit c' t' next' y').
Proof.
  intros t t' next next' y y' Ht Hn Hy. unfold push_implicit. rewrite <- (implicit_like _ _ _ _ Ht Hn).
  destruct (implicit_here c t next) eqn:Ei; [|exact Hy]. destruct Hy as (H1 & H2 & H3 & H4). repeat split; simpl; auto.
  constructor; [|exact H2]. constructor. apply Hstar. unfold implicit_here in Ei. apply andb_true_iff in Ei. apply Ei.
Qed.

Lemma yard_loop_like : forall toks toks' rest rest' pos y y', likes toks toks' -> likes rest rest' -> like_yard y y' ->
  like_yres (yard_loop c dbg toks pos rest y) (yard_loop c' dbg toks' pos rest' y').
Proof.
  intros toks toks' rest rest' pos y y' HT H. revert pos y y'.
  induction H as [|t t' rest rest' Ht H IH]; intros pos y y' Hy; cbn [yard_loop]; [exact Hy|].
  assert (Hn : like_opt (hd_error rest) (hd_error rest')) by (inversion H; simpl; auto).
  pose proof (yard_step_like toks toks' pos t t' _ _ y y' HT Ht Hn Hy) as G.
  destruct (yard_step c dbg toks pos t (hd_error rest) y), (yard_step c' dbg toks' pos t' (hd_error rest') y'); try contradiction; simpl; auto.
  apply IH. apply push_implicit_like; assumption.
Qed.

Lemma finish_like : forall ops ops' out out', likes ops ops' -> likes out out' -> like_res (finish out ops) (finish out' ops').
Proof.
  intros ops ops' out out' H. revert out out'. induction H as [|t t' ops ops' Ht H IH]; intros out out' Ho; simpl; auto.
  rewrite (like_close _ _ Ht). destruct (is_grouping_close t'); simpl; auto. apply IH. apply likes_snoc; auto.
Qed.

Lemma infix_like : forall toks toks', likes toks toks' -> like_res (infix_to_rpn c dbg toks) (infix_to_rpn c' dbg toks').
Proof.
  intros toks toks' H. unfold infix_to_rpn.
  assert (H0 : like_yard (Yard [] [] [] []) (Yard [] [] [] [])) by (repeat split; constructor).
  pose proof (yard_loop_like toks toks' toks toks' 0 _ _ H H H0) as G.
  destruct (yard_loop c dbg toks 0 toks (Yard [] [] [] [])), (yard_loop c' dbg toks' 0 toks' (Yard [] [] [] [])); try contradiction; simpl; auto.
  destruct G as (G1 & G2 & _). apply finish_like; assumption.
Qed.

Lemma rpn_like : forall rpn rpn', likes rpn rpn' -> forall values ac w, rpn_loop c dbg rpn values ac w = rpn_loop c' dbg rpn' values ac w.
Proof.
  intros rpn rpn' H. induction H as [|t t' rpn rpn' Ht H IH]; intros values ac w; [reflexivity|].
  inversion Ht; subst; cbn [rpn_loop]; try reflexivity; try apply IH;
    try match goal with h : ?a = _ |- _ => rewrite <- h end.
  - destruct (get_variable c x); [apply IH|reflexivity].
  - destruct (get_constant c x); [apply IH|reflexivity].
  - destruct (get_function c x) as [fn|]; [|reflexivity]. destruct ac as [n|]; [|reflexivity]. destruct (pop_args n values []) as [vs args].
    unfold bind. destruct (fn_call fn (rev args) w) as [[r|k|] w1]; try reflexivity. apply IH.
  - destruct (get_binary c x) as [fn|]; [|reflexivity]. destruct values as [|v1 [|v2 values]]; try reflexivity.
    unfold bind. destruct (bf_call fn v2 v1 w) as [[r|k|] w1]; try reflexivity. apply IH.
  - destruct (get_unary c x) as [fn|]; [|reflexivity]. destruct values as [|v1 values]; try reflexivity.
    unfold bind. destruct (uf_call fn v1 w) as [[r|k|] w1]; try reflexivity. apply IH.
  - destruct (dbg && is_some ac); [reflexivity|]. apply IH.
Qed.

Theorem eval_like : forall toks toks' w, likes toks toks' -> eval_tokens c dbg toks w = eval_tokens c' dbg toks' w.
Proof.
  intros toks toks' w H. pose proof (infix_like toks toks' H) as G. unfold eval_tokens, bind at 1 3, lift.
  destruct (infix_to_rpn c dbg toks) as [r|k|], (infix_to_rpn c' dbg toks') as [r'|k'|]; try contradiction; try congruence.
  unfold bind. rewrite (rpn_like r r' G). reflexivity.
Qed.

End Frame.
