(** * Two contexts with the same syntax, one of which may also report an overflow *)
From Coq Require Import List NArith Bool Arith Lia Permutation.
From Verif Require Import ModelBase ModelContext ModelEvaluator ModelText ModelStr ModelSplit ModelTokenizer SpecTokens SpecCompare ProofTokens2.
Import ListNotations.

Section Compare.
Context {V W : Type}.
Variable excused : Prop.
Variables c c' : ctx V W.
Variable parse : str -> option V.
Notation tok := (token V).
Notation same := (same_outcome excused).
Definition bless (o o' : option (bfunc V W)) : Prop :=
  match o, o' with
  | Some f, Some g => bf_prec f = bf_prec g /\ bf_assoc f = bf_assoc g /\ forall x y, same (bf_call f x y) (bf_call g x y)
  | None, None => True | _, _ => False end.
Definition uless (o o' : option (ufunc V W)) : Prop :=
  match o, o' with Some f, Some g => uf_notation f = uf_notation g /\ forall x, same (uf_call f x) (uf_call g x) | None, None => True | _, _ => False end.
Definition fless (o o' : option (func V W)) : Prop :=
  match o, o' with Some f, Some g => forall args, same (fn_call f args) (fn_call g args) | None, None => True | _, _ => False end.
Hypothesis Hcfg : cfg c = cfg c'.
Hypothesis Hvar : forall x, get_variable c x = get_variable c' x.
Hypothesis Hcon : forall x, get_constant c x = get_constant c' x.
Hypothesis Hbin : forall x, bless (get_binary c x) (get_binary c' x).
Hypothesis Hun : forall x, uless (get_unary c x) (get_unary c' x).
Definition shared (x : str) : Prop := fless (get_function c x) (get_function c' x).

Lemma same_bind : forall A B (m m' : M W A) (k k' : A -> M W B), same m m' -> (forall a, same (k a) (k' a)) -> same (bind m k) (bind m' k').
Proof.
  intros A B m m' k k' Hm Hk w. unfold bind. destruct (Hm w) as [[e Hw]|Hw].
  - left. split; [exact e|]. destruct (m w) as [r w1]. cbn in Hw. subst r. reflexivity.
  - rewrite Hw. destruct (m w) as [[a|k0|] w1]; [apply Hk|right; reflexivity|right; reflexivity].
Qed.
Lemma same_self : forall A (m : M W A), same m m.
Proof. intros A m w. right. reflexivity. Qed.

(** ** The shunting yard looks only at the shapes *)
Lemma is_some_un : forall x, is_some (get_unary c x) = is_some (get_unary c' x).
Proof. intros x. pose proof (Hun x) as H. destruct (get_unary c x), (get_unary c' x); try contradiction; reflexivity. Qed.
Lemma is_some_bin : forall x, is_some (get_binary c x) = is_some (get_binary c' x).
Proof. intros x. pose proof (Hbin x) as H. destruct (get_binary c x), (get_binary c' x); try contradiction; reflexivity. Qed.
Lemma push_number_same : forall t y, push_number c t y = push_number c' t y.
Proof. intros t y. unfold push_number. destruct (y_ops y) as [|[] ?]; try reflexivity. rewrite is_some_un. reflexivity. Qed.
Lemma push_unary_same : forall x y, push_unary_function c x y = push_unary_function c' x y.
Proof.
  intros x y. unfold push_unary_function. pose proof (Hun x) as H. destruct (get_unary c x), (get_unary c' x); try contradiction; [|reflexivity].
  destruct H as [H _]. rewrite H. reflexivity.
Qed.
Lemma pop_same : forall f g ops out, bf_prec f = bf_prec g -> bf_assoc f = bf_assoc g -> pop_operators c f out ops = pop_operators c' g out ops.
Proof.
  intros f g ops out Hp Ha. revert out. induction ops as [|t ops IH]; intros out; [reflexivity|]. cbn [pop_operators].
  destruct t; try reflexivity; [apply IH|]. pose proof (Hbin o) as H. destruct (get_binary c o) as [a|], (get_binary c' o) as [b|]; try contradiction; [|reflexivity].
  destruct H as (H1 & H2 & _). unfold pop_condition. rewrite H1, H2, Hp. destruct (_ || _); [apply IH|reflexivity].
Qed.
Lemma push_binary_same : forall x y, push_binary_function c x y = push_binary_function c' x y.
Proof.
  intros x y. unfold push_binary_function. pose proof (Hbin x) as H. destruct (get_binary c x) as [f|], (get_binary c' x) as [g|]; try contradiction; [|reflexivity].
  destruct H as (H1 & H2 & _). rewrite (pop_same f g _ _ H1 H2). reflexivity.
Qed.
Lemma close_same : forall close ops out argc, close_loop c close out ops argc = close_loop c' close out ops argc.
Proof.
  intros close ops. induction ops as [|t ops IH]; intros out argc; [reflexivity|]. cbn [close_loop]. destruct t; try apply IH. rewrite Hcfg. reflexivity.
Qed.
Lemma step_same : forall dbg toks pos t next y, yard_step c dbg toks pos t next y = yard_step c' dbg toks pos t next y.
Proof.
  intros dbg toks pos t next y. destruct t; cbn [yard_step]; try reflexivity; try (rewrite push_number_same; reflexivity).
  - rewrite Hcfg. reflexivity.
  - apply push_binary_same.
  - apply push_unary_same.
Qed.
Lemma yard_same : forall dbg toks rest pos y, yard_loop c dbg toks pos rest y = yard_loop c' dbg toks pos rest y.
Proof.
  intros dbg toks rest. induction rest as [|t rest IH]; intros pos y; [reflexivity|]. cbn [yard_loop]. rewrite step_same.
  destruct (yard_step c' dbg toks pos t (hd_error rest) y) as [y'| |]; try reflexivity. cbn [rbind].
  replace (push_implicit c t (hd_error rest) y') with (push_implicit c' t (hd_error rest) y'); [apply IH|]. unfold push_implicit, implicit_here. rewrite Hcfg. reflexivity.
Qed.
Lemma infix_same : forall dbg toks, infix_to_rpn c dbg toks = infix_to_rpn c' dbg toks.
Proof. intros dbg toks. unfold infix_to_rpn. rewrite yard_same. reflexivity. Qed.

(** ** Postfix evaluation *)
Definition tshared (t : tok) : Prop := match t with TFunction f => shared f | _ => True end.
Lemma rpn_same : forall dbg rpn, Forall tshared rpn -> forall vals ac, same (rpn_loop c dbg rpn vals ac) (rpn_loop c' dbg rpn vals ac).
Proof.
  intros dbg rpn. induction rpn as [|t rpn IH]; intros Hr vals ac; [apply same_self|]. inversion Hr as [|? ? Ht Hr']; subst. specialize (IH Hr').
  destruct t; cbn [rpn_loop]; try apply same_self; try apply IH.
  - rewrite Hvar. destruct (get_variable c' x); [apply IH|apply same_self].
  - rewrite Hcon. destruct (get_constant c' x); [apply IH|apply same_self].
  - cbn in Ht. unfold shared in Ht. destruct (get_function c f) as [g|], (get_function c' f) as [g'|]; try contradiction; [|apply same_self].
    destruct ac as [k|]; [|apply same_self]. destruct (pop_args k vals []) as [vs args]. apply same_bind; [apply Ht|intros a; apply IH].
  - pose proof (Hbin o) as H. destruct (get_binary c o) as [g|], (get_binary c' o) as [g'|]; try contradiction; [|apply same_self].
    destruct vals as [|x [|y vals]]; try apply same_self. apply same_bind; [apply H|intros a; apply IH].
  - pose proof (Hun u) as H. destruct (get_unary c u) as [g|], (get_unary c' u) as [g'|]; try contradiction; [|apply same_self].
    destruct vals as [|x vals]; try apply same_self. apply same_bind; [apply H|intros a; apply IH].
  - destruct (dbg && is_some ac); [apply same_self|apply IH].
Qed.
Theorem tokens_same : forall dbg toks, Forall tshared toks -> same (eval_tokens c dbg toks) (eval_tokens c' dbg toks).
Proof.
  intros dbg toks Ht w. unfold eval_tokens. rewrite <- infix_same. unfold bind, lift at 1 3.
  destruct (infix_to_rpn c dbg toks) as [rpn| |] eqn:R; try (right; reflexivity).
  assert (Hr : Forall tshared rpn).
  { destruct (infix_conserved c dbg toks rpn R) as (_ & Hp & _). apply Forall_forall. intros t It. destruct t; try exact I.
    apply (proj1 (Forall_forall _ _) Ht). assert (J : In (TFunction f) (operations rpn)) by (apply filter_In; split; [exact It|reflexivity]).
    apply (Permutation_in _ Hp), in_app_or in J. destruct J as [J|J]; [apply filter_In in J; apply J|]. apply repeat_spec in J. discriminate. }
  refine (same_bind _ _ _ _ (fun values => match values with [v] => ret v | _ => fail InvalidExpression end) (fun values => match values with [v] => ret v | _ => fail InvalidExpression end) (rpn_same dbg rpn Hr [] None) _ w).
  intros a. apply same_self.
Qed.

(** ** The tokenizer *)
Lemma is_unary_same : forall prev x b, is_unary c parse prev x b = is_unary c' parse prev x b.
Proof.
  intros prev x b. unfold is_unary. pose proof (Hun x) as H. destruct (get_unary c x) as [f|], (get_unary c' x) as [g|]; try contradiction; [|reflexivity].
  destruct H as [H _]. rewrite H. unfold is_close_symbol, is_value_name, is_variable, is_constant, is_unary_function, is_binary_function. rewrite Hcfg.
  destruct (uf_notation g); destruct prev as [q|]; try reflexivity; rewrite Hvar, Hcon; [|reflexivity].
  destruct (negb b); [reflexivity|]. destruct (match single_char q with Some ch => _ | None => _ end); [reflexivity|].
  destruct (_ || _); [reflexivity|]. destruct (first_byte q) as [r| |]; try reflexivity. cbn [rbind]. rewrite is_some_un, is_some_bin. reflexivity.
Qed.
Lemma classify_same : forall prev x b, shared x -> classify c parse prev x b = classify c' parse prev x b /\
  (forall t, classify c parse prev x b = Ok (Some t) -> tshared t).
Proof.
  intros prev x b Hx. unfold classify. rewrite is_unary_same. unfold is_variable, is_constant, is_function_name, is_binary_function, is_unary_function.
  rewrite Hvar, Hcon, is_some_un, is_some_bin, Hcfg.
  assert (Hf : is_some (get_function c x) = is_some (get_function c' x)) by (unfold shared in Hx; destruct (get_function c x), (get_function c' x); try contradiction; reflexivity).
  rewrite Hf. split; [reflexivity|]. intros t.
  destruct (is_some (get_variable c' x)); [intros H; injection H as <-; exact I|]. destruct (is_some (get_constant c' x)); [intros H; injection H as <-; exact I|].
  destruct (is_some (get_function c' x)); [intros H; injection H as <-; exact Hx|]. destruct (_ || _).
  - destruct (is_unary c' parse prev x b) as [[]| |]; cbn [rbind]; try discriminate; [intros H; injection H as <-; exact I|].
    destruct (_ || _); [discriminate|]. intros H; injection H as <-; exact I.
  - destruct (str_eqb x _); [intros H; injection H as <-; exact I|]. destruct (str_eqb x _); [discriminate|].
    destruct (if (byte_len x =? 1)%nat then _ else _) as [[ch op]|]; intros H; injection H as <-; [destruct (char_eqb ch op)|]; exact I.
Qed.
Lemma loop_same : forall n raw prev, (List.length raw <= n)%nat -> Forall shared raw ->
  tokenize_loop c parse prev raw = tokenize_loop c' parse prev raw /\ (forall ts, tokenize_loop c parse prev raw = Ok ts -> Forall tshared ts).
Proof.
  induction n as [|n IH]; intros raw prev Hl Hr; destruct raw as [|x raw]; try (simpl in Hl; lia); try (split; [reflexivity|intros ts H; injection H as <-; constructor]).
  inversion Hr as [|? ? Hx Hr']; subst. cbn [List.length] in Hl. cbn [tokenize_loop].
  destruct (parse x) as [v|].
  - destruct raw as [|im raw']; [split; [reflexivity|intros ts H; injection H as <-; repeat constructor]|].
    inversion Hr' as [|? ? Hi Hr2]; subst. rewrite <- Hcfg. destruct (complex_number (cfg c) && _).
    + destruct (parse (x ++ im)) as [v'|]; [|split; [reflexivity|discriminate]].
      destruct (IH raw' (Some im)) as [E T]; [simpl in Hl; lia|exact Hr2|].
      rewrite E in *. split; [reflexivity|]. destruct (tokenize_loop c' parse (Some im) raw') as [ts| |]; try discriminate. intros r H; injection H as <-. constructor; [exact I|apply T; reflexivity].
    + destruct (IH (im :: raw') (Some x)) as [E T]; [lia|exact Hr'|]. rewrite E in *. split; [reflexivity|].
      destruct (tokenize_loop c' parse (Some x) (im :: raw')) as [ts| |]; try discriminate. intros r H; injection H as <-. constructor; [exact I|apply T; reflexivity].
  - destruct (classify_same prev x (negb (List.length raw =? 0)%nat) Hx) as [E T]. rewrite E in *.
    destruct (classify c' parse prev x _) as [o| |]; cbn [rbind]; try (split; [reflexivity|discriminate]).
    destruct (IH raw (Some x)) as [E2 T2]; [lia|exact Hr'|]. rewrite E2 in *. split; [reflexivity|].
    destruct (tokenize_loop c' parse (Some x) raw) as [ts| |]; try discriminate. intros r H; injection H as <-.
    destruct o as [t|]; [constructor; [apply T; reflexivity|]|]; apply T2; reflexivity.
Qed.
Theorem text_same : forall dbg splitter s, Forall shared (splitter s) -> same (eval c parse splitter dbg s) (eval c' parse splitter dbg s).
Proof.
  intros dbg splitter s Hs w. unfold eval, tokenize, bind, lift. destruct (trim s) as [|ch0 tl0]; [right; reflexivity|].
  destruct (loop_same _ (splitter s) None (le_n _) Hs) as [E T]. rewrite <- E.
  destruct (tokenize_loop c parse None (splitter s)) as [ts| |]; try (right; reflexivity). apply tokens_same. apply T. reflexivity.
Qed.
End Compare.
