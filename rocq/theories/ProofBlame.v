(** * Where errors come from: proofs *)
From Coq Require Import List NArith ZArith Bool Arith Lia String Permutation.
From Verif Require Import ModelBase ModelContext ModelText ModelDefault ModelTokenizer ModelEvaluator ModelFloat ModelNum ModelOps ModelComplex ModelDecimal ModelBinary
  SpecExpr SpecTokens SpecFunctions SpecOps ProofTokens2 ProofDefault ProofBuild ProofCtx ProofComplex ProofDecimal ProofBinary PropDecimal4 SpecBlame.
Import ListNotations.

Definition own (k : errkind) : Prop := k = InvalidInput \/ k = InvalidExpression.
Definition owns {A} (r : res A) : Prop := forall k, r = Err k -> own k.

Section Blame.
Context {V W : Type}.
Variable c : ctx V W.
Variable dbg : bool.
Notation tok := (token V).

Lemma owns_ok : forall A (a : A), owns (Ok a). Proof. intros A a k H. discriminate H. Qed.
Lemma owns_panic : forall A, owns (@Panic A). Proof. intros A k H. discriminate H. Qed.
Lemma owns_input : forall A, owns (@Err A InvalidInput). Proof. intros A k H. left. congruence. Qed.
Lemma owns_expr : forall A, owns (@Err A InvalidExpression). Proof. intros A k H. right. congruence. Qed.
Lemma owns_bind : forall A B (r : res A) (f : A -> res B), owns r -> (forall a, owns (f a)) -> owns (rbind r f).
Proof. intros A B [a|k|] f Hr Hf; cbn; [apply Hf| |apply owns_panic]. intros k' H. apply Hr. congruence. Qed.
Create HintDb owns.
Hint Resolve owns_ok owns_panic owns_input owns_expr : owns.

Lemma owns_close_loop : forall cl ops out argc, owns (close_loop c cl out ops argc).
Proof.
  intros cl. induction ops as [|t ops IH]; intros out argc; cbn [close_loop]; [auto with owns|]. destruct t; try apply IH.
  destruct (get_group_symbol (cfg c) c0) as [[o k]|]; [|auto with owns]. destruct (char_eqb k cl); [|auto with owns].
  destruct argc as [|a argc]; [auto with owns|]. destruct ops as [|[] ops]; auto with owns.
Qed.
Lemma owns_comma_loop : forall ops out, owns (comma_loop (V := V) out ops).
Proof. induction ops as [|t ops IH]; intros out; cbn [comma_loop]; [auto with owns|]. destruct t; try apply IH. auto with owns. Qed.
Lemma owns_step : forall toks pos t next y, owns (yard_step c dbg toks pos t next y).
Proof.
  intros toks pos t next y. destruct t; cbn [yard_step]; auto with owns.
  - destruct (negb _ && negb _); auto with owns.
  - unfold push_binary_function. destruct (get_binary c o); [|auto with owns]. destruct (pop_operators _ _ _ _). auto with owns.
  - unfold push_unary_function. destruct (get_unary c u) as [f|]; [|auto with owns]. destruct (uf_notation f); [auto with owns|]. destruct (y_out y); auto with owns.
  - unfold step_close. apply owns_bind; [apply owns_close_loop|]. intros [[out ops] argc]. destruct (1 <? pos)%nat; [|auto with owns].
    destruct (nth_error toks (pos - 1)) as [[]|]; auto with owns. destruct (match get_group_open_for _ _ with Some _ => _ | None => _ end); [|auto with owns].
    destruct (nth_error toks (pos - 2)); [|auto with owns]. destruct (negb _); auto with owns.
  - apply owns_bind.
    + unfold check_comma_position. destruct (pos =? 0)%nat; [auto with owns|]. destruct (tok_at _ _ _); [auto with owns|]. destruct (tok_at _ _ _); [auto with owns|].
      destruct (y_grp y) as [|[|g] gs]; [auto with owns|destruct dbg; auto with owns|]. destruct (tok_at _ _ _); auto with owns.
    + intros _. unfold push_comma. destruct (y_argc y); [auto with owns|]. apply owns_bind; [apply owns_comma_loop|]. intros [o p]. auto with owns.
Qed.
Lemma owns_loop : forall toks rest pos y, owns (yard_loop c dbg toks pos rest y).
Proof.
  intros toks. induction rest as [|t rest IH]; intros pos y; cbn [yard_loop]; [auto with owns|]. apply owns_bind; [apply owns_step|]. intros y'. apply IH.
Qed.
Lemma owns_finish : forall ops out, owns (finish (V := V) out ops).
Proof. induction ops as [|t ops IH]; intros out; cbn [finish]; [auto with owns|]. destruct (is_grouping_close t); [auto with owns|apply IH]. Qed.
Lemma owns_infix : forall toks, owns (infix_to_rpn c dbg toks).
Proof. intros toks. unfold infix_to_rpn. apply owns_bind; [apply owns_loop|]. intros y. apply owns_finish. Qed.

Definition blamed (toks : list tok) (k : errkind) (w' : W) : Prop := own k \/ exists t, In t toks /\ operation_token t = true /\ raises c t k w'.
Lemma blamed_own : forall toks k w', own k -> blamed toks k w'. Proof. intros. left. assumption. Qed.
Lemma blamed_later : forall t toks k w', blamed toks k w' -> blamed (t :: toks) k w'.
Proof. intros t toks k w' [H|(u & Hi & H)]; [left; exact H|right; exists u; split; [right; exact Hi|exact H]]. Qed.

Lemma rpn_blamed : forall rpn values ac w k w', rpn_loop c dbg rpn values ac w = (Err k, w') -> blamed rpn k w'.
Proof.
  induction rpn as [|t rpn IH]; intros values ac w k w' H; [discriminate H|].
  assert (OI : forall A, @fail W A InvalidInput w = (Err k, w') -> blamed (t :: rpn) k w') by (intros A F; left; left; unfold fail in F; congruence).
  assert (OE : forall A, @fail W A InvalidExpression w = (Err k, w') -> blamed (t :: rpn) k w') by (intros A F; left; right; unfold fail in F; congruence).
  destruct t; cbn [rpn_loop] in H; try (apply (OI _ H)).
  - apply blamed_later. eapply IH. exact H.
  - destruct (get_variable c x); [|apply (OI _ H)]. apply blamed_later. eapply IH. exact H.
  - destruct (get_constant c x); [|apply (OI _ H)]. apply blamed_later. eapply IH. exact H.
  - destruct (get_function c f) as [fn|] eqn:G; [|apply (OI _ H)]. destruct ac as [n|]; [|apply (OI _ H)]. destruct (pop_args n values []) as [values' args].
    unfold bind in H. destruct (fn_call fn (rev args) w) as [[r|k1|] w1] eqn:C; try discriminate H.
    + apply blamed_later. eapply IH. exact H.
    + right. exists (TFunction f). split; [left; reflexivity|]. split; [reflexivity|]. exists fn, (rev args), w. split; [exact G|]. rewrite C. congruence.
  - destruct (get_binary c o) as [fn|] eqn:G; [|apply (OI _ H)]. destruct values as [|x [|y values]]; try apply (OE _ H).
    unfold bind in H. destruct (bf_call fn y x w) as [[r|k1|] w1] eqn:C; try discriminate H.
    + apply blamed_later. eapply IH. exact H.
    + right. exists (TBinary o). split; [left; reflexivity|]. split; [reflexivity|]. exists fn, y, x, w. split; [exact G|]. rewrite C. congruence.
  - destruct (get_unary c u) as [fn|] eqn:G; [|apply (OI _ H)]. destruct values as [|x values]; try apply (OE _ H).
    unfold bind in H. destruct (uf_call fn x w) as [[r|k1|] w1] eqn:C; try discriminate H.
    + apply blamed_later. eapply IH. exact H.
    + right. exists (TUnary u). split; [left; reflexivity|]. split; [reflexivity|]. exists fn, x, w. split; [exact G|]. rewrite C. congruence.
  - destruct (dbg && is_some ac); [discriminate H|]. apply blamed_later. eapply IH. exact H.
Qed.

Lemma eval_blamed : forall toks w k w', eval_tokens c dbg toks w = (Err k, w') -> own k \/
  exists t, raises c t k w' /\ (In t toks \/ t = TBinary star /\ implicit_mul (cfg c) = true /\ juxtapositions toks <> 0%nat).
Proof.
  intros toks w k w' H. unfold eval_tokens, bind, lift in H. pose proof (owns_infix toks) as O.
  destruct (infix_to_rpn c dbg toks) as [rpn|k1|] eqn:R; [|left; apply O; congruence|discriminate H].
  destruct (rpn_loop c dbg rpn [] None w) as [[vs|k1|] w1] eqn:L; [|assert (k1 = k /\ w1 = w') as [-> ->] by (split; congruence)|discriminate H].
  - left. right. destruct vs as [|v [|v' vs]]; unfold ret, fail in H; congruence.
  - destruct (rpn_blamed _ _ _ _ _ _ L) as [Ho|(t & Hi & Ht & Hr)]; [left; exact Ho|]. right. exists t. split; [exact Hr|].
    destruct (infix_conserved c dbg toks rpn R) as (_ & P & _).
    assert (Hin : In t (operations toks ++ repeat (TBinary star) (if implicit_mul (cfg c) then juxtapositions toks else 0))).
    { eapply Permutation_in; [exact P|]. apply filter_In. auto. }
    apply in_app_or in Hin. destruct Hin as [Hin|Hin].
    + left. apply filter_In in Hin. apply Hin.
    + right. pose proof (repeat_spec _ _ _ Hin) as Et. subst t. split; [reflexivity|]. destruct (implicit_mul (cfg c)); [|destruct Hin]. split; [reflexivity|]. intros Z. rewrite Z in Hin. destruct Hin.
Qed.
End Blame.

(** ** Tables *)
Definition covers (T : table) (name : str) : list errkind :=
  flat_map (fun '(names, kinds) => if existsb (fun s => str_eqb name (lit s)) names then kinds else []) T.
Lemma covers_entry : forall E T name q k, eq_ignore_case E q name = true -> In k (covers T name) -> entry E T q k.
Proof.
  intros E T name q k Hq H. unfold covers in H. apply in_flat_map in H. destruct H as ([names kinds] & Hi & Hk).
  destruct (existsb _ names) eqn:X; [|destruct Hk]. apply existsb_exists in X. destruct X as (s & Hs & He). apply str_eqb_eq in He. subst name.
  exists names, kinds, s. auto.
Qed.

Lemma quiet_int : forall t dbg, quiet (int_num t dbg).
Proof.
  intros t dbg. repeat split; intros; cbn; unfold raw, raw_div, raw_rem; repeat match goal with |- (if ?b then _ else _) <> _ => destruct b end; discriminate.
Qed.
Lemma quiet_f64 : forall fuel, quiet (f64_num fuel).
Proof. intros. repeat split; intros; discriminate. Qed.
Lemma quiet_complex : quiet complex_num.
Proof. repeat split; intros; discriminate. Qed.

Definition within {A} (ks : list errkind) (r : res A) : Prop := forall k, r = Err k -> In k ks.
Lemma within_ok : forall A ks (a : A), within ks (Ok a). Proof. intros A ks a k H. discriminate H. Qed.
Lemma within_panic : forall A ks, within ks (@Panic A). Proof. intros A ks k H. discriminate H. Qed.
Lemma within_err : forall A ks k, In k ks -> within ks (@Err A k). Proof. intros A ks k Hi k' H. injection H as <-. exact Hi. Qed.
Lemma within_bind : forall A B ks (r : res A) (f : A -> res B), within ks r -> (forall a, within ks (f a)) -> within ks (rbind r f).
Proof. intros A B ks [a|k|] f Hr Hf; cbn; [apply Hf| |apply within_panic]. intros k' H. apply Hr. congruence. Qed.
Lemma within_sub : forall A ks ks' (r : res A), within ks r -> incl ks ks' -> within ks' r.
Proof. intros A ks ks' r H Hi k Hk. apply Hi, H, Hk. Qed.
Lemma within_none : forall A ks (r : res A), (forall k, r <> Err k) -> within ks r.
Proof. intros A ks r H k Hk. exfalso. exact (H k Hk). Qed.
Lemma within_over : forall V ks (o : option V), In Overflow ks -> within ks (or_overflow o).
Proof. intros V ks [v|] H; [apply within_ok|apply within_err; exact H]. Qed.
Lemma within_count : forall V ks (o : option V), In InvalidArgumentCount ks -> within ks (or_no_args o).
Proof. intros V ks [v|] H; [apply within_ok|apply within_err; exact H]. Qed.
Lemma within_fold : forall V ks (op : V -> V -> res V) args a, (forall x y, within ks (op x y)) -> within ks (fold_args op a args).
Proof.
  intros V ks op. induction args as [|x args IH]; intros a H; cbn [fold_args]; [apply within_ok|]. destruct a as [v|]; [|apply IH; exact H].
  apply within_bind; [apply H|]. intros r. apply IH. exact H.
Qed.
Lemma within_float : forall V (n : num V) ks x, In Overflow ks -> In NAN ks -> within ks (try_to_float n x).
Proof. intros V n ks x H1 H2. unfold try_to_float. destruct (n_to_f64 n x); [|apply within_err; exact H1]. destruct (_ || _); [apply within_err; exact H2|apply within_ok]. Qed.
Lemma within_finite : forall V (n : num V) ks x, In Overflow ks -> In NAN ks -> within ks (finite_result n x).
Proof. intros V n ks x H1 H2. unfold finite_result. destruct (_ || _); [apply within_err; exact H2|apply within_over; exact H1]. Qed.
Lemma within_finite_opt : forall V (n : num V) ks x, In Overflow ks -> In NAN ks -> within ks (finite_result_opt n x).
Proof. intros V n ks [x|] H1 H2; cbn; [apply within_finite; assumption|apply within_err; exact H1]. Qed.
Lemma within_one : forall V ks (f : V -> res V) args, In InvalidArgumentCount ks -> (forall x, within ks (f x)) -> within ks (one_arg f args).
Proof. intros V ks f [|x [|y args]] H Hf; cbn; try (apply within_err; exact H). apply Hf. Qed.

Section Ops.
Context {V W : Type}.
Variable n : num V.
Hypothesis Hn : quiet n.
Variable L : libm.
Variable random : W -> f64 * W.

Lemma within_fact_loop : forall fuel total next r, ModelOps.fact_loop n fuel total next = Some r -> within [] r.
Proof.
  destruct Hn as (_ & Hs & Hm & _). induction fuel as [|fuel IH]; intros total next r H; cbn [ModelOps.fact_loop] in H;
    (destruct (n_ge n next (n_one n)); [|injection H as <-; apply within_ok]); [discriminate H|].
  destruct (n_mul n total next) as [a|k|] eqn:M; [|exfalso; exact (Hm _ _ _ M)|injection H as <-; apply within_panic].
  destruct (n_sub n next (n_one n)) as [b|k|] eqn:S; [|exfalso; exact (Hs _ _ _ S)|injection H as <-; apply within_panic]. eapply IH. exact H.
Qed.
Lemma within_factorial : forall fuel x, within [NegativeValue; Overflow] (match ModelOps.factorial n L fuel x with Some r => r | None => Panic end).
Proof.
  intros fuel x. unfold ModelOps.factorial. destruct (n_lt n x (n_zero n)); [apply within_err; cbn; auto|]. destruct (_ || _); [apply within_ok|].
  destruct (n_lt n x (n_one n)); [unfold or_overflow_f; destruct (n_to_f64 n x); [apply within_over; cbn; auto|apply within_err; cbn; auto]|].
  destruct (n_sub n x (n_one n)) as [y|k|] eqn:S; [|exfalso; destruct Hn as (_ & Hs & _); exact (Hs _ _ _ S)|apply within_panic].
  destruct (ModelOps.fact_loop n fuel x y) as [r|] eqn:Fl; [|apply within_panic]. pose proof (within_fact_loop _ _ _ _ Fl) as R.
  destruct r as [[total next]|k|]; [|destruct (R k eq_refl)|apply within_panic].
  destruct (negb _); [|apply within_ok]. destruct (n_to_f64 n total); [|apply within_err; cbn; auto]. destruct (n_to_f64 n next); [apply within_over; cbn; auto|apply within_err; cbn; auto].
Qed.

Lemma within_rand : forall args w k w', fn_call (op_rand n random) args w = (Err k, w') -> In k [InvalidArgumentCount; NegativeValue; InvalidInput; NAN; Overflow].
Proof.
  intros args w k w' H. cbn [op_rand fn_call] in H.
  assert (F : forall x k, try_to_float n x = Err k -> In k [NAN; Overflow]) by (intros x k0 E; apply (within_float V n [NAN; Overflow] x); [cbn; auto|cbn; auto|exact E]).
  assert (O : forall o k, or_overflow (V := V) o = Err k -> k = Overflow) by (intros [v|] k0 E; cbn in E; congruence).
  destruct args as [|x [|y [|z args]]].
  - destruct (random w) as [r w1]. injection H as H _. apply O in H. subst k. cbn; auto 10.
  - unfold bind, lift in H. destruct (try_to_float n x) as [m|k1|] eqn:T; [|assert (k1 = k) by congruence; subst k1; specialize (F _ _ T); cbn in *; tauto|discriminate H].
    destruct (f_sign_negative m); [unfold fail in H; assert (k = NegativeValue) by congruence; subst k; cbn; auto|].
    destruct (random w) as [r w1]. injection H as H _. apply O in H. subst k. cbn; auto 10.
  - unfold bind, lift in H. destruct (try_to_float n x) as [m|k1|] eqn:T; [|assert (k1 = k) by congruence; subst k1; specialize (F _ _ T); cbn in *; tauto|discriminate H].
    destruct (try_to_float n y) as [m'|k1|] eqn:T'; [|assert (k1 = k) by congruence; subst k1; specialize (F _ _ T'); cbn in *; tauto|discriminate H].
    destruct (f_lt m' m); [unfold fail in H; assert (k = InvalidInput) by congruence; subst k; cbn; auto|].
    destruct (random w) as [r w1]. injection H as H _. apply O in H. subst k. cbn; auto 10.
  - unfold fail in H. assert (k = InvalidArgumentCount) by congruence. subst k. cbn; auto.
Qed.

Lemma lift_within : forall ks (r : res V) (w w' : W) k, within ks r -> lift r w = (Err k, w') -> In k ks.
Proof. intros ks r w w' k H E. apply H. unfold lift in E. congruence. Qed.

Ltac mem := cbn; auto 10.
Ltac wi := repeat first
  [ apply within_ok | apply within_panic | apply within_over; mem | apply within_count; mem | apply within_finite_opt; mem | apply within_finite; mem
  | apply within_float; mem | apply within_bind; [|intros ?] | apply within_one; [mem|intros ?] | apply within_fold; intros ? ?
  | apply within_none; intros ?; apply Hn | (apply within_err; solve [mem])
  | match goal with |- within _ (if ?b then _ else _) => destruct b end
  | match goal with |- within _ (match ?o with Some _ => _ | None => _ end) => destruct o end ].

Ltac pickt := match goal with H : lift ?r _ = (Err _, _) |- In _ ?l => let l' := eval vm_compute in l in change l with l'; eapply lift_within; [|exact H] end.

Lemma checked_bins_within : forall f, In f (checked_bins (W := W) n L) -> forall x y w k w', bf_call f x y w = (Err k, w') -> In k (covers (b_binary (checked_blame true)) (bf_name f)).
Proof.
  intros f Hf x y w k w' H. unfold checked_bins in Hf. cbn [In] in Hf. repeat (destruct Hf as [<-|Hf]; [cbn [bf_call bf_name binop c_add c_sub c_mul c_div c_mod op_pow] in *; pickt; wi|]). destruct Hf.
Qed.
Lemma checked_uns_within : forall f, In f (checked_uns (W := W) n L) -> forall x w k w', uf_call f x w = (Err k, w') -> In k (covers (b_unary (checked_blame true)) (uf_name f)).
Proof.
  intros f Hf x w k w' H. unfold checked_uns in Hf. cbn [In] in Hf. destruct Hf as [<-|[<-|[<-|[]]]]; cbn [uf_call uf_name unop op_plus c_neg op_factorial] in *; pickt; [apply within_ok|wi|].
  apply within_factorial.
Qed.
Lemma unchecked_bins_within : forall f, In f (unchecked_bins (W := W) n L) -> forall x y w k w', bf_call f x y w = (Err k, w') -> In k (covers (b_binary unchecked_blame) (bf_name f)).
Proof.
  intros f Hf x y w k w' H. unfold unchecked_bins in Hf. cbn [In] in Hf. repeat (destruct Hf as [<-|Hf]; [cbn [bf_call bf_name binop u_add u_sub u_mul u_div u_mod op_pow] in *; pickt; wi|]). destruct Hf.
Qed.
Lemma unchecked_uns_within : forall f, In f (unchecked_uns (W := W) n L) -> forall x w k w', uf_call f x w = (Err k, w') -> In k (covers (b_unary unchecked_blame) (uf_name f)).
Proof.
  intros f Hf x w k w' H. unfold unchecked_uns in Hf. cbn [In] in Hf. destruct Hf as [<-|[<-|[<-|[]]]]; cbn [uf_call uf_name unop op_plus u_neg op_factorial] in *; pickt; [apply within_ok|wi|].
  apply within_factorial.
Qed.

Ltac fun1 := match goal with H : fn_call ?f _ _ = (Err _, _) |- In _ ?l => let l' := eval vm_compute in l in change l with l';
  first [ eapply within_rand; exact H
        | unfold c_sum, c_prod, c_avg, u_sum, u_prod, u_avg, op_max, op_min, c_abs, op_sqrt, op_ln, op_log, op_exp, op_floor, op_ceil, op_trunc, op_round, op_sign, op_to_radians, op_to_degrees,
            op_atan, trig, trig_rec, arc_trig, arc_trig_rec, forward_inv, forward, fun_ in H; cbn [fn_call] in H; eapply lift_within; [|exact H]; wi;
          match goal with |- within _ (match ?a with [] => _ | _ => _ end) => destruct a as [|a1 [|a2 [|a3 a4]]] end; wi ] end.
Lemma common_within : forall f, In f (common_list (W := W) n L) -> forall args w k w', fn_call f args w = (Err k, w') ->
  In k [InvalidArgumentCount; NAN; Overflow] /\ forall docs, In k (covers (b_functions (checked_blame docs)) (fn_name f)) /\ In k (covers (b_functions unchecked_blame) (fn_name f)).
Proof.
  intros f Hf args w k w' H. assert (G : In k [InvalidArgumentCount; NAN; Overflow]).
  { unfold common_list in Hf. cbn [In] in Hf. repeat (destruct Hf as [<-|Hf]; [fun1|]). destruct Hf. }
  split; [exact G|]. clear H. intros docs.
  assert (C : covers (b_functions (checked_blame docs)) (fn_name f) = [InvalidArgumentCount; NAN; Overflow] /\ covers (b_functions unchecked_blame) (fn_name f) = [InvalidArgumentCount; NAN; Overflow]).
  { unfold common_list in Hf. cbn [In] in Hf. destruct docs; repeat (destruct Hf as [<-|Hf]; [split; vm_compute; reflexivity|]); destruct Hf. }
  destruct C as [-> ->]. auto.
Qed.
Lemma checked_funs_within : forall docs f, In f (checked_funs n L random docs) -> forall args w k w', fn_call f args w = (Err k, w') -> In k (covers (b_functions (checked_blame docs)) (fn_name f)).
Proof.
  intros docs f Hf args w k w' H. unfold checked_funs in Hf. apply in_app_or in Hf. destruct Hf as [Hf|Hf]; [|apply (common_within f Hf args w k w' H)].
  cbn [In] in Hf. destruct docs; repeat (destruct Hf as [<-|Hf]; [fun1|]); destruct Hf.
Qed.
Lemma unchecked_funs_within : forall f, In f (unchecked_funs n L random) -> forall args w k w', fn_call f args w = (Err k, w') -> In k (covers (b_functions unchecked_blame) (fn_name f)).
Proof.
  intros f Hf args w k w' H. unfold unchecked_funs in Hf. apply in_app_or in Hf. destruct Hf as [Hf|Hf]; [|apply (proj2 (common_within f Hf args w k w' H) true)].
  cbn [In] in Hf. repeat (destruct Hf as [<-|Hf]; [fun1|]); destruct Hf.
Qed.
End Ops.

(** ** Complex and decimal contexts *)
Lemma fold_none : forall V (op : V -> V -> res V) args a, (forall x y k, op x y <> Err k) -> forall k, fold_args op a args <> Err k.
Proof.
  intros V op. induction args as [|x l IH]; intros a Ho k; cbn [fold_args]; [discriminate|]. destruct a as [v|]; [|apply IH; exact Ho].
  destruct (op v x) as [r|k1|] eqn:X; cbn [rbind]; [apply IH; exact Ho|exfalso; exact (Ho _ _ _ X)|discriminate].
Qed.
Lemma complex_bins_within : forall W (L : clib) f, In f (cx_bins (W := W) L) -> forall x y w k w', bf_call f x y w = (Err k, w') -> In k (covers (b_binary complex_blame) (bf_name f)).
Proof.
  intros W L f Hf x y w k w' H. unfold cx_bins in Hf. cbn [In] in Hf. destruct Hf as [<-|[<-|[<-|[<-|[<-|[<-|[]]]]]]]; try discriminate H;
    unfold u_div, u_mod, binop in H; cbn [bf_call] in H; unfold lift in H; (destruct (n_is_zero complex_num y) in H; [|discriminate H]);
    assert (k = DivisionByZero) by congruence; subst k; vm_compute; auto.
Qed.
Lemma complex_uns_within : forall W f, In f (cx_uns (W := W)) -> forall x w k w', uf_call f x w <> (Err k, w').
Proof. intros W f Hf x w k w' H. unfold cx_uns in Hf. cbn [In] in Hf. destruct Hf as [<-|[<-|[]]]; discriminate H. Qed.
Lemma complex_rand_within : forall W (random : W -> f64 * W) args w k w', fn_call (z_rand random) args w = (Err k, w') -> In k [InvalidArgumentCount; NegativeValue; InvalidInput].
Proof.
  intros W random args w k w' H. cbn [z_rand fn_call] in H.
  assert (G : forall c k, try_get_real c = Err k -> k = InvalidInput) by (intros c k0; unfold try_get_real; destruct (negb _); intros E; congruence).
  destruct args as [|x [|y [|z args]]].
  - destruct (random w) as [r w1]. destruct (random w1). discriminate H.
  - unfold bind, lift in H. destruct (try_get_real x) as [m|k1|] eqn:T; [|assert (k1 = k) by congruence; subst k1; rewrite (G _ _ T); cbn; auto|discriminate H].
    destruct (f_sign_negative m); [unfold fail in H; assert (k = NegativeValue) by congruence; subst k; cbn; auto|]. destruct (random w) as [r w1]. destruct (random w1). discriminate H.
  - unfold bind, lift in H. destruct (try_get_real x) as [m|k1|] eqn:T; [|assert (k1 = k) by congruence; subst k1; rewrite (G _ _ T); cbn; auto|discriminate H].
    destruct (try_get_real y) as [m'|k1|] eqn:T'; [|assert (k1 = k) by congruence; subst k1; rewrite (G _ _ T'); cbn; auto|discriminate H].
    destruct (_ || _); [unfold fail in H; assert (k = InvalidInput) by congruence; subst k; cbn; auto|]. destruct (random w) as [r w1]. destruct (random w1). discriminate H.
  - unfold fail in H. assert (k = InvalidArgumentCount) by congruence. subst k. cbn; auto.
Qed.
Lemma complex_funs_within : forall W (L : clib) (random : W -> f64 * W) f, In f (cx_funs L random) -> forall args w k w', fn_call f args w = (Err k, w') -> In k (covers (b_functions complex_blame) (fn_name f)).
Proof.
  intros W L random f Hf args w k w' H. unfold cx_funs in Hf. cbn [In] in Hf.
  assert (A : forall op, (forall x y k, op x y <> Err k) -> forall g : option c64 -> res c64, (forall v, g (Some v) <> Err k) -> (g None = Err k -> k = InvalidArgumentCount) ->
    rbind (fold_args (V := c64) op None args) g = Err k -> k = InvalidArgumentCount).
  { intros op Ho g Hs Hg X. pose proof (fold_none _ op args None Ho) as F. destruct (fold_args op None args) as [[v|]|k1|]; cbn [rbind] in X; [exfalso; exact (Hs v X)|exact (Hg X)|exfalso; exact (F k1 eq_refl)|discriminate X]. }
  assert (P := quiet_complex). destruct P as (Pa & _ & Pm & Pd & _ & _).
  repeat (destruct Hf as [<-|Hf]; [match goal with |- In _ ?l => let l' := eval vm_compute in l in change l with l' end;
    first [ eapply complex_rand_within; exact H
          | unfold u_sum, u_avg, u_prod, fun_ in H; cbn [fn_call] in H; unfold lift in H; injection H as H _; left; symmetry; refine (A _ _ _ _ _ H); [intros; first [apply Pa|apply Pm]|intros v; cbn; discriminate|cbn; intros; congruence]
          | unfold z_fwd, z_fwd_inv, z_log, fun_ in H; cbn [fn_call one_arg] in H; unfold lift in H; destruct args as [|x [|y [|z args]]]; try discriminate H;
            try (injection H as <- _; cbn; auto; fail); (destruct (negb _) in H; [discriminate H|injection H as <- _; cbn; auto])
          ]|]); try (destruct Hf).
Qed.
Lemma dec_funs_within : forall D W (L : dlib D) fuel (random : W -> f64 * W) f, In f (dec_funs L fuel random) -> forall args w k w', fn_call f args w = (Err k, w') -> In k (covers (b_functions decimal_blame) (fn_name f)).
Proof.
  intros D W L fuel random f Hf args w k w' H. destruct (str_eqb (fn_name f) (lit "random")) eqn:R.
  - apply str_eqb_eq in R. rewrite R. assert (f = op_rand (dec_num L fuel) random) as ->.
    { unfold dec_funs in Hf. cbn [In] in Hf. repeat (destruct Hf as [<-|Hf]; [first [reflexivity|exfalso; vm_compute in R; discriminate R]|]). destruct Hf. }
    pose proof (within_rand _ _ _ _ _ _ H) as G. vm_compute. cbn in G. intuition.
  - assert (Hn : fn_name f <> lit "random") by (intros X; rewrite X, str_eqb_refl in R; discriminate R).
    destruct (dec_strict L fuel random f Hf Hn args w) as (_ & B & C). rewrite H in B, C. cbn [fst] in B, C.
    assert (K : k = InvalidArgumentCount \/ k = Overflow /\ ~ exists s, In s never_overflow /\ fn_name f = lit s).
    { destruct (accepts (fn_name f) (List.length args)); [right; apply C; reflexivity|left; assert (X := B eq_refl); congruence]. }
    clear B C H R. unfold dec_funs in Hf. cbn [In] in Hf.
    repeat (destruct Hf as [<-|Hf]; [match goal with |- In _ ?l => let l' := eval vm_compute in l in change l with l' end;
      first [ exfalso; apply Hn; reflexivity
            | destruct K as [-> | [-> _]]; cbn; solve [auto]
            | destruct K as [-> | [_ K]]; [cbn; solve [auto]|exfalso; apply K; first [exists "sum"%string; split; [cbn; tauto|reflexivity]|exists "avg"%string; split; [cbn; tauto|reflexivity]|exists "product"%string; split; [cbn; tauto|reflexivity]|exists "max"%string; split; [cbn; tauto|reflexivity]|exists "min"%string; split; [cbn; tauto|reflexivity]
                  |exists "ceil"%string; split; [cbn; tauto|reflexivity]|exists "floor"%string; split; [cbn; tauto|reflexivity]|exists "truncate"%string; split; [cbn; tauto|reflexivity]|exists "round"%string; split; [cbn; tauto|reflexivity]]] ]|]). destruct Hf.
Qed.
Lemma dec_bins_within : forall D W (L : dlib D) fuel f, In f (dec_bins (W := W) L fuel) -> forall x y w k w', bf_call f x y w = (Err k, w') -> In k (covers (b_binary decimal_blame) (bf_name f)).
Proof.
  intros D W L fuel f Hf x y w k w' H. assert (k = Overflow).
  { unfold dec_bins in Hf. cbn [In] in Hf. repeat (destruct Hf as [<-|Hf]; [unfold x_add, x_sub, x_mul, x_div, x_mod, x_pow, binop in H; cbn [bf_call] in H; unfold lift in H; apply (f_equal fst) in H; cbn [fst] in H;
      (eapply over_only; [|exact H]); first [apply ne_powd|intros k'; unfold opt; discriminate]|]). destruct Hf. }
  subst k. clear H. unfold dec_bins in Hf. cbn [In] in Hf. destruct Hf as [<-|[<-|[<-|[<-|[<-|[<-|[]]]]]]]; vm_compute; auto.
Qed.
Lemma dec_uns_within : forall D W (L : dlib D) fuel f, In f (dec_uns (W := W) L fuel) -> forall x w k w', uf_call f x w = (Err k, w') -> In k (covers (b_unary decimal_blame) (uf_name f)).
Proof.
  intros D W L fuel f Hf x w k w' H. unfold dec_uns in Hf. cbn [In] in Hf. destruct Hf as [<-|[<-|[<-|[]]]]; try discriminate H.
  unfold x_fact, unop in H. cbn [uf_call] in H. unfold lift in H. injection H as H _. apply over_only in H; [subst k; vm_compute; auto|apply ne_factorial].
Qed.

(** ** Contexts *)
Definition answers {V W} (E : env) (B : blame) (c : ctx V W) : Prop := forall t k w', raises c t k w' -> charged E B t k.
Lemma answers_from : forall V W E B (c : ctx V W) bins uns funs,
  (forall q f, get_binary c q = Some f -> In f bins /\ eq_ignore_case E q (bf_name f) = true) ->
  (forall q f, get_unary c q = Some f -> In f uns /\ eq_ignore_case E q (uf_name f) = true) ->
  (forall q f, get_function c q = Some f -> In f funs /\ eq_ignore_case E q (fn_name f) = true) ->
  (forall f, In f bins -> forall x y w k w', bf_call f x y w = (Err k, w') -> In k (covers (b_binary B) (bf_name f))) ->
  (forall f, In f uns -> forall x w k w', uf_call f x w = (Err k, w') -> In k (covers (b_unary B) (uf_name f))) ->
  (forall f, In f funs -> forall args w k w', fn_call f args w = (Err k, w') -> In k (covers (b_functions B) (fn_name f))) -> answers E B c.
Proof.
  intros V W E B c bins uns funs Fb Fu Ff Hb Hu Hf t k w' H. destruct t; cbn in H |- *; try contradiction.
  - destruct H as (fn & args & w & G & C). destruct (Ff _ _ G) as [Hi He]. eapply covers_entry; [exact He|]. eapply Hf; [exact Hi|exact C].
  - destruct H as (fn & x & y & w & G & C). destruct (Fb _ _ G) as [Hi He]. eapply covers_entry; [exact He|]. eapply Hb; [exact Hi|exact C].
  - destruct H as (fn & x & w & G & C). destruct (Fu _ _ G) as [Hi He]. eapply covers_entry; [exact He|]. eapply Hu; [exact Hi|exact C].
Qed.
Lemma answers_same : forall V W E B (c d : ctx V W), (forall q, get_binary c q = get_binary d q) -> (forall q, get_unary c q = get_unary d q) -> (forall q, get_function c q = get_function d q) ->
  answers E B d -> answers E B c.
Proof.
  intros V W E B c d Hb Hu Hf A t k w' H. apply (A t k w'). destruct t; cbn in H |- *; try contradiction.
  - destruct H as (fn & args & w & G & C). rewrite Hf in G. exists fn, args, w. auto.
  - destruct H as (fn & x & y & w & G & C). rewrite Hb in G. exists fn, x, y, w. auto.
  - destruct H as (fn & x & w & G & C). rewrite Hu in G. exists fn, x, w. auto.
Qed.
Lemma checked_answers : forall V W (n : num V) L (random : W -> f64 * W) docs E dbg cf d, quiet n -> checked_context n L random docs E dbg cf = Ok d -> answers E (checked_blame docs) (to_ctx E d).
Proof.
  intros V W n L random docs E dbg cf d Hn Hd. destruct (ProofCtx.checked_inv n L random docs E dbg cf d Hd) as (p & e & _ & _ & ->).
  apply (answers_from _ _ _ _ _ (checked_bins n L) (checked_uns n L) (checked_funs n L random docs)).
  - intros q f H. eapply found_bin. exact H.
  - intros q f H. eapply found_un. exact H.
  - intros q f H. eapply found_fun. exact H.
  - exact (checked_bins_within n L).
  - exact (checked_uns_within n Hn L).
  - exact (checked_funs_within n L random docs).
Qed.
Lemma unchecked_answers : forall V W (n : num V) L (random : W -> f64 * W) E dbg cf d, quiet n -> unchecked_context n L random E dbg cf = Ok d -> answers E unchecked_blame (to_ctx E d).
Proof.
  intros V W n L random E dbg cf d Hn Hd. destruct (unchecked_inv n L random E dbg cf d Hd) as (p & e & _ & _ & ->).
  apply (answers_from _ _ _ _ _ (unchecked_bins n L) (unchecked_uns n L) (unchecked_funs n L random)).
  - intros q f H. eapply found_bin. exact H.
  - intros q f H. eapply found_un. exact H.
  - intros q f H. eapply found_fun. exact H.
  - exact (unchecked_bins_within n Hn L).
  - exact (unchecked_uns_within n Hn L).
  - exact (unchecked_funs_within n Hn L random).
Qed.
Lemma complex_answers : forall W (L : clib) (random : W -> f64 * W) E dbg cf d, complex_context L random E dbg cf = Ok d -> answers E complex_blame (to_ctx E d).
Proof.
  intros W L random E dbg cf d Hd. apply (answers_from _ _ _ _ _ (cx_bins L) cx_uns (cx_funs L random)).
  - intros q f H. exact (cx_bin_found L random E dbg cf d Hd q f H).
  - intros q f H. exact (cx_un_found L random E dbg cf d Hd q f H).
  - intros q f H. exact (cx_fun_found L random E dbg cf d Hd q f H).
  - exact (complex_bins_within W L).
  - intros f Hf x w k w' H. exfalso. exact (complex_uns_within W f Hf x w k w' H).
  - exact (complex_funs_within W L random).
Qed.
Lemma decimal_answers : forall D W (L : dlib D) fuel (random : W -> f64 * W) E dbg cf d, decimal_context L fuel random E dbg cf = Ok d -> answers E decimal_blame (to_ctx E d).
Proof.
  intros D W L fuel random E dbg cf d Hd. apply (answers_from _ _ _ _ _ (dec_bins L fuel) (dec_uns L fuel) (dec_funs L fuel random)).
  - intros q f H. exact (dec_bin_found L fuel random E dbg cf d Hd q f H).
  - intros q f H. exact (dec_un_found L fuel random E dbg cf d Hd q f H).
  - intros q f H. exact (dec_fun_found L fuel random E dbg cf d Hd q f H).
  - exact (dec_bins_within D W L fuel).
  - exact (dec_uns_within D W L fuel).
  - exact (dec_funs_within D W L fuel random).
Qed.
Lemma binary_answers : forall W dbg E cf d, binary_context (W := W) dbg E cf = Ok d -> answers E (Blame [] [] []) (to_ctx E d).
Proof.
  intros W dbg E cf d Hd. rewrite binary_is in Hd. injection Hd as <-. intros t k w' H. exfalso. destruct t; cbn [raises] in H; try contradiction.
  - destruct H as (fn & args & w & G & C). discriminate G.
  - destruct H as (fn & x & y & w & G & C). apply mget_some in G. destruct G as (kk & Hin & _).
    repeat (destruct Hin as [Hin|Hin]; [injection Hin as _ <-; unfold b_shr, b_shl, bin2 in C; cbn [bf_call] in C; unfold lift, shift in C; try discriminate C; repeat match type of C with context [if ?b then _ else _] => destruct b end; discriminate C|]). destruct Hin.
  - destruct H as (fn & x & w & G & C). apply mget_some in G. destruct G as (kk & Hin & _).
    repeat (destruct Hin as [Hin|Hin]; [injection Hin as _ <-; discriminate C|]). destruct Hin.
Qed.
