(** * Invariants of the conversion, continued: brackets, commas, conservation of tokens *)
From Coq Require Import List NArith Bool Arith Lia Permutation.
From Verif Require Import ModelBase ModelContext ModelEvaluator SpecExpr SpecGrammar SpecTokens ProofTokens.
Import ListNotations.

Section Tokens2.
Context {V W : Type}.
Variable c : ctx V W.
Variable dbg : bool.
Notation tok := (token V).
Notation yard := (@yard V).

Lemma loop_start : forall (I : list tok -> yard -> Prop) toks,
  I [] (Yard [] [] [] []) ->
  (forall pre t rest y y', toks = pre ++ t :: rest -> I pre y ->
     yard_step c dbg toks (length pre) t (hd_error rest) y = Ok y' ->
     I (pre ++ [t]) (push_implicit c t (hd_error rest) y')) ->
  forall y, yard_loop c dbg toks 0 toks (Yard [] [] [] []) = Ok y -> I toks y.
Proof.
  intros I toks H0 Hs y H. apply (loop_invariant c dbg I toks Hs toks [] (Yard [] [] [] []) y); auto.
Qed.

Lemma finish_out : forall ops out r, @finish V out ops = Ok r -> r = out ++ ops.
Proof.
  induction ops as [|t ops IH]; intros out r H; simpl in H.
  - injection H as <-. rewrite app_nil_r. reflexivity.
  - destruct (is_grouping_close t); [discriminate|]. apply IH in H. rewrite H, <- app_assoc. reflexivity.
Qed.

Lemma infix_inv : forall (I : list tok -> yard -> Prop) toks rpn,
  I [] (Yard [] [] [] []) ->
  (forall pre t rest y y', toks = pre ++ t :: rest -> I pre y ->
     yard_step c dbg toks (length pre) t (hd_error rest) y = Ok y' ->
     I (pre ++ [t]) (push_implicit c t (hd_error rest) y')) ->
  infix_to_rpn c dbg toks = Ok rpn -> exists y, I toks y /\ rpn = y_out y ++ y_ops y.
Proof.
  intros I toks rpn H0 Hs H. unfold infix_to_rpn in H.
  destruct (yard_loop c dbg toks 0 toks (Yard [] [] [] [])) as [y| |] eqn:E; try discriminate H. simpl in H.
  exists y. split; [exact (loop_start I toks H0 Hs y E)|]. apply finish_out. exact H.
Qed.

(** ** Argument counts are followed by their functions *)

Definition tidy (y : yard) : Prop := paired (y_out y) /\ Forall plain_token (y_ops y).

Lemma Forall_app_l : forall {A} (P : A -> Prop) l1 l2, Forall P (l1 ++ l2) -> Forall P l1.
Proof. intros A P l1 l2 H. apply Forall_app in H. apply H. Qed.
Lemma Forall_app_r : forall {A} (P : A -> Prop) l1 l2, Forall P (l1 ++ l2) -> Forall P l2.
Proof. intros A P l1 l2 H. apply Forall_app in H. apply H. Qed.

Lemma tidy_number : forall t y, atom_token t = true -> tidy y -> tidy (push_number c t y).
Proof.
  intros t y Ht [Ho Hp].
  destruct (push_number_inv c t y) as [E|(u & ops' & Eo & E)]; rewrite E; split; simpl.
  - apply paired_app; [exact Ho|]. destruct t; simpl; try exact I; discriminate Ht.
  - exact Hp.
  - apply paired_app; [exact Ho|]. destruct t; simpl; try exact I; discriminate Ht.
  - rewrite Eo in Hp. inversion Hp; assumption.
Qed.

Lemma step_tidy : forall toks (pre : list tok) t rest y y',
  tidy y -> yard_step c dbg toks (length pre) t (hd_error rest) y = Ok y' ->
  tidy (push_implicit c t (hd_error rest) y').
Proof.
  intros toks pre t rest y y' Hi H.
  assert (Hy : tidy y').
  { destruct Hi as [Ho Hp]. destruct t; cbn [yard_step] in H.
    - injection H as <-. apply tidy_number; [reflexivity|split; assumption].
    - injection H as <-. apply tidy_number; [reflexivity|split; assumption].
    - injection H as <-. apply tidy_number; [reflexivity|split; assumption].
    - destruct (_ && _); [discriminate|]. injection H as <-. split; [exact Ho|]. constructor; [exact I|exact Hp].
    - apply push_binary_inv in H. destruct H as (_ & ps & ops' & Eo & F & ->). rewrite Eo in Hp. split; simpl.
      + apply paired_app; [exact Ho|]. apply paired_plain. exact (Forall_app_l _ _ _ Hp).
      + constructor; [exact I|]. exact (Forall_app_r _ _ _ Hp).
    - apply push_unary_inv in H. destruct H as (_ & [->| ->]); split; simpl; auto.
      + constructor; [exact I|exact Hp].
      + apply paired_app; [exact Ho|exact I].
    - discriminate.
    - injection H as <-. split; [exact Ho|]. constructor; [exact I|exact Hp].
    - apply step_close_inv in H. destruct H as (ps & o & ops' & g & Eo & _ & _ & _ & D & _). rewrite Eo in Hp.
      pose proof (Forall_app_l _ _ _ Hp) as Hps. pose proof (Forall_app_r _ _ _ Hp) as Hp'. inversion Hp' as [|? ? _ Hp2]; subst.
      destruct D as [(n & f & Ea & Eops & Eout)|(_ & _ & Eops & Eout)]; split; rewrite ?Eout.
      + apply paired_app; [exact Ho|]. apply paired_app; [apply paired_plain; exact Hps|]. exact I.
      + rewrite Eops in Hp2. inversion Hp2; assumption.
      + apply paired_app; [exact Ho|]. apply paired_plain; exact Hps.
      + rewrite Eops. exact Hp2.
    - discriminate.
    - destruct (check_comma_position dbg toks (y_grp y) (length pre)); try discriminate. simpl in H.
      apply push_comma_inv in H. destruct H as (ps & o & ops' & n & argc' & Eo & _ & _ & ->). rewrite Eo in Hp.
      split; simpl.
      + apply paired_app; [exact Ho|]. apply paired_plain. exact (Forall_app_l _ _ _ Hp).
      + exact (Forall_app_r _ _ _ Hp). }
  destruct Hy as [Ho Hp]. destruct (push_implicit_ops c t (hd_error rest) y') as (E1 & _ & _ & E2).
  split; [rewrite E1; exact Ho|]. rewrite E2. apply Forall_app. split; [|exact Hp].
  destruct (implicit_here c t (hd_error rest)); constructor; [exact I|constructor].
Qed.

Lemma infix_paired : forall toks rpn, infix_to_rpn c dbg toks = Ok rpn -> paired rpn.
Proof.
  intros toks rpn H. destruct (infix_inv (fun _ => tidy) toks rpn) as (y & [Ho Hp] & ->); auto.
  - split; [exact I|constructor].
  - intros pre t rest y y' _ Hi Hs. eapply step_tidy; eassumption.
  - apply paired_app; [exact Ho|apply paired_plain; exact Hp].
Qed.

(** ** Evaluation of a postfix sequence does not panic *)

Lemma paired_ind : forall (P : list tok -> Prop),
  P [] ->
  (forall n f l, paired l -> P l -> P (TArgCount n :: TFunction f :: l)) ->
  (forall t l, plain_token t -> paired l -> P l -> P (t :: l)) ->
  forall l, paired l -> P l.
Proof.
  intros P H0 H1 H2.
  assert (H : forall n l, length l <= n -> paired l -> P l).
  { induction n as [|n IH]; intros [|t l] Hn Hp; simpl in Hn; auto; try lia.
    destruct t as [v|x|x|f|o|u|m|ch|ch|s|]; try (apply H2; [exact I|exact Hp|apply IH; [lia|exact Hp]]).
    simpl in Hp. destruct l as [|t' l]; [contradiction|]. destruct t'; try contradiction.
    apply H1; [exact Hp|]. apply IH; [simpl in Hn; lia|exact Hp]. }
  intros l. apply (H (length l)). lia.
Qed.

Lemma bind_no_panic : forall {A B} (m : M W A) (f : A -> M W B) w,
  fst (m w) <> Panic -> (forall a w', fst (f a w') <> Panic) -> fst (bind m f w) <> Panic.
Proof.
  intros A B m f w Hm Hf. unfold bind. destruct (m w) as [[a| |] w']; simpl in *; auto. discriminate.
Qed.

Lemma rpn_no_panic : forall rpn, paired rpn -> Forall (calls_safely c) rpn -> forall vals w,
  fst (rpn_loop c dbg rpn vals None w) <> Panic.
Proof.
  intros rpn Hp. pattern rpn. revert rpn Hp. apply paired_ind;
    [|intros n f l Hl IH|intros t l Ht Hl IH]; intros Hs vals w.
  - discriminate.
  - inversion Hs as [|? ? _ Hs1]; subst. inversion Hs1 as [|? ? Hf Hs2]; subst.
    cbn [rpn_loop is_some]. rewrite andb_false_r. destruct (get_function c f) as [fn|] eqn:E; [|discriminate].
    destruct (pop_args n vals []) as [values' args]. apply bind_no_panic; [apply Hf; exact E|]. intros. apply IH. exact Hs2.
  - inversion Hs as [|? ? H1 Hs1]; subst. specialize (IH Hs1).
    destruct t; cbn [rpn_loop]; try apply IH; try discriminate.
    + destruct (get_variable c x); [apply IH|discriminate].
    + destruct (get_constant c x); [apply IH|discriminate].
    + destruct (get_function c f); discriminate.
    + destruct (get_binary c o) as [f|] eqn:E; [|discriminate]. destruct vals as [|x [|y' vals]]; try discriminate.
      apply bind_no_panic; [apply H1; exact E|]. intros. apply IH.
    + destruct (get_unary c u) as [f|] eqn:E; [|discriminate]. destruct vals as [|x vals]; try discriminate.
      apply bind_no_panic; [apply H1; exact E|]. intros. apply IH.
    + contradiction.
Qed.

(** ** Brackets and commas *)

Definition is_open (t : tok) : Prop := match t with TOpen _ => True | _ => False end.
Definition is_fun (t : tok) : Prop := match t with TFunction _ => True | _ => False end.

(** [st pre ops live k]: [ops] is the operator stack after reading [pre]; its opening symbols are those still open in
    [pre]; [k] is the number of functions on it, [live] the positions in [pre] of the open symbols that have a
    function below. *)
Inductive st : list tok -> list tok -> list nat -> nat -> Prop :=
| st_nil : forall b, balanced b -> st b [] [] 0
| st_op : forall pre ops live k t, st pre ops live k -> ~ is_open t -> ~ is_fun t -> st pre (t :: ops) live k
| st_fun : forall pre ops live k f, st pre ops live k -> st pre (TFunction f :: ops) live (S k)
| st_open : forall pre ops live k o b, st pre ops live k -> balanced b ->
    st (pre ++ TOpen o :: b) (TOpen o :: ops) (match k with 0 => live | S _ => length pre :: live end) k.

Lemma st_ext : forall pre ops live k b, st pre ops live k -> balanced b -> st (pre ++ b) ops live k.
Proof.
  intros pre ops live k b H. revert b. induction H as [b0 Hb|pre ops live k t H IH Ho Hf|pre ops live k f H IH|pre ops live k o b0 H IH Hb];
    intros b Hb'.
  - constructor. constructor; assumption.
  - apply st_op; auto.
  - apply st_fun; auto.
  - rewrite <- app_assoc. simpl. apply st_open; [exact H|]. constructor; assumption.
Qed.

Lemma st_zero : forall pre ops live k, st pre ops live k -> k = 0 -> live = [].
Proof.
  intros pre ops live k H. induction H; intros E; auto; try discriminate. subst. auto.
Qed.

Lemma st_op_inv : forall pre t ops live k, st pre (t :: ops) live k -> ~ is_open t -> ~ is_fun t -> st pre ops live k.
Proof.
  intros pre t ops live k H Ho Hf. inversion H; subst; auto.
  - exfalso. apply Hf. exact I.
  - exfalso. apply Ho. exact I.
Qed.

Lemma st_ops_inv : forall ps pre ops live k, st pre (ps ++ ops) live k -> Forall (fun t => ~ is_open t /\ ~ is_fun t) ps ->
  st pre ops live k.
Proof.
  induction ps as [|t ps IH]; intros pre ops live k H F; [exact H|]. inversion F as [|? ? [H1 H2] F']; subst.
  apply IH; [|exact F']. eapply st_op_inv; eassumption.
Qed.

Lemma st_fun_inv : forall pre f ops live k, st pre (TFunction f :: ops) live k -> exists k', k = S k' /\ st pre ops live k'.
Proof.
  intros pre f ops live k H. inversion H; subst.
  - exfalso. match goal with h : ~ is_fun _ |- _ => apply h end. exact I.
  - eauto.
Qed.

Lemma st_open_inv : forall pre o ops live k, st pre (TOpen o :: ops) live k ->
  exists pre0 b live', pre = pre0 ++ TOpen o :: b /\ balanced b /\ st pre0 ops live' k /\
    live = match k with 0 => live' | S _ => length pre0 :: live' end.
Proof.
  intros pre o ops live k H. inversion H; subst.
  - exfalso. match goal with h : ~ is_open _ |- _ => apply h end. exact I.
  - eauto 10.
Qed.

(** If a function is below on the stack and no open symbol, [k] is positive. *)
Definition calls (toks : list tok) : Prop :=
  forall before after, toks = before ++ TComma :: after -> comma_in_call before.

Definition regular (out : list tok) : Prop := reg false out <> None.

Lemma regular_app : forall l1 l2, regular (l1 ++ l2) -> regular l1.
Proof. unfold regular. intros l1 l2. rewrite reg_app. destruct (reg false l1); congruence. Qed.

Lemma regular_no_fun : forall out ps, regular (out ++ ps) -> paired out -> Forall plain_token ps ->
  Forall (fun t => ~ is_fun t) ps.
Proof.
  intros out ps H Hp. unfold regular in H. rewrite reg_app in H. pose proof (paired_reg out Hp) as Hr.
  destruct (reg false out) as [b|]; [|congruence]. subst b. clear Hp.
  induction ps as [|t ps IH]; intros F; constructor; inversion F as [|? ? Ht F']; subst.
  - intros Hf. destruct t; try contradiction; apply H; reflexivity.
  - apply IH; [|exact F']. destruct t; try exact H; try contradiction; exfalso; apply H; reflexivity.
Qed.

Definition bracketed (pre : list tok) (y : yard) : Prop :=
  tidy y /\ (regular (y_out y) ->
  calls pre /\ exists live stale, st pre (y_ops y) live (length (y_argc y)) /\ y_grp y = live ++ stale).

Lemma calls_snoc : forall pre t, calls pre -> (t = TComma -> comma_in_call pre) -> calls (pre ++ [t]).
Proof.
  intros pre t Hc Ht before after E.
  destruct (rev after) as [|t' ra] eqn:Ea.
  - apply (f_equal (@rev tok)) in Ea. rewrite rev_involutive in Ea. simpl in Ea. subst after.
    apply app_inj_tail in E. destruct E as [-> E]. apply Ht. exact E.
  - apply (f_equal (@rev tok)) in Ea. rewrite rev_involutive in Ea. simpl in Ea. subst after.
    rewrite app_comm_cons, app_assoc in E. apply app_inj_tail in E. destruct E as [E _]. eapply Hc. exact E.
Qed.

Lemma bal_one : forall t : tok, is_bracket t = false -> balanced [t].
Proof. intros. apply bal_other. assumption. Qed.

Lemma step_bracketed : forall toks pre t rest y y', toks = pre ++ t :: rest ->
  bracketed pre y -> yard_step c dbg toks (length pre) t (hd_error rest) y = Ok y' ->
  bracketed (pre ++ [t]) (push_implicit c t (hd_error rest) y').
Proof.
  intros toks pre t rest y y' Et [Ht Hi] H. split; [eapply step_tidy; eassumption|].
  destruct (push_implicit_ops c t (hd_error rest) y') as (E1 & E2 & E3 & E4). rewrite E1. intros Hreg.
  enough (Hm : calls (pre ++ [t]) /\ exists live stale, st (pre ++ [t]) (y_ops y') live (length (y_argc y')) /\ y_grp y' = live ++ stale).
  { destruct Hm as (Hc & live & stale & Hs & Hg). split; [exact Hc|]. exists live, stale. rewrite E2, E3, E4.
    split; [|exact Hg]. destruct (implicit_here c t (hd_error rest)); [|exact Hs]. apply st_op; [exact Hs|intros []|intros []]. }
  clear E1 E2 E3 E4. destruct Ht as [Ho Hp].
  assert (Hnum : forall y', y' = push_number c t y -> is_bracket t = false -> regular (y_out y') -> t <> TComma ->
    calls (pre ++ [t]) /\ exists live stale, st (pre ++ [t]) (y_ops y') live (length (y_argc y')) /\ y_grp y' = live ++ stale).
  { clear H Hreg y'. intros y' -> Hb Hreg Hnc.
    destruct (push_number_inv c t y) as [E|(u & ops' & Eo & E)]; rewrite E in *; cbn [y_out y_ops y_argc y_grp] in *;
      destruct (Hi (regular_app _ _ Hreg)) as (Hc & live & stale & Hs & Hg);
      (split; [apply calls_snoc; [exact Hc|congruence]|]); exists live, stale; (split; [|exact Hg]);
      apply st_ext; try (apply bal_one; exact Hb); [exact Hs|].
    rewrite Eo in Hs. apply (st_op_inv _ _ _ _ _ Hs); intros []. }
  destruct t; cbn [yard_step] in H.
  - injection H as <-. apply Hnum; auto. discriminate.
  - injection H as <-. apply Hnum; auto. discriminate.
  - injection H as <-. apply Hnum; auto. discriminate.
  - destruct (_ && _); [discriminate|]. injection H as <-. cbn [y_out y_ops y_argc y_grp] in *.
    destruct (Hi Hreg) as (Hc & live & stale & Hs & Hg). split; [apply calls_snoc; [exact Hc|discriminate]|].
    exists live, stale. split; [|exact Hg]. simpl. apply st_fun. apply st_ext; [exact Hs|apply bal_one; reflexivity].
  - apply push_binary_inv in H. destruct H as (_ & ps & ops' & Eo & F & ->). cbn [y_out y_ops y_argc y_grp] in *.
    destruct (Hi (regular_app _ _ Hreg)) as (Hc & live & stale & Hs & Hg). split; [apply calls_snoc; [exact Hc|discriminate]|].
    exists live, stale. split; [|exact Hg]. apply st_op; [|intros []|intros []].
    apply st_ext; [|apply bal_one; reflexivity]. rewrite Eo in Hs, Hp. apply (st_ops_inv ps); [exact Hs|].
    pose proof (regular_no_fun _ _ Hreg Ho (Forall_app_l _ _ _ Hp)) as Hnf.
    apply Forall_forall. intros t Hin. split.
    + rewrite Forall_forall in F. specialize (F t Hin). destruct t; try contradiction; intros [].
    + rewrite Forall_forall in Hnf. exact (Hnf t Hin).
  - apply push_unary_inv in H. destruct H as (_ & [->| ->]); cbn [y_out y_ops y_argc y_grp] in *.
    + destruct (Hi Hreg) as (Hc & live & stale & Hs & Hg). split; [apply calls_snoc; [exact Hc|discriminate]|].
      exists live, stale. split; [|exact Hg]. apply st_op; [|intros []|intros []].
      apply st_ext; [exact Hs|apply bal_one; reflexivity].
    + destruct (Hi (regular_app _ _ Hreg)) as (Hc & live & stale & Hs & Hg). split; [apply calls_snoc; [exact Hc|discriminate]|].
      exists live, stale. split; [|exact Hg]. apply st_ext; [exact Hs|apply bal_one; reflexivity].
  - discriminate.
  - injection H as <-. cbn [y_out y_ops y_argc y_grp] in *.
    destruct (Hi Hreg) as (Hc & live & stale & Hs & Hg). split; [apply calls_snoc; [exact Hc|discriminate]|].
    exists (match length (y_argc y) with 0 => live | S _ => length pre :: live end), stale.
    split; [apply st_open; [exact Hs|constructor]|].
    destruct (y_argc y); cbn [length]; rewrite Hg; reflexivity.
  - apply step_close_inv in H. destruct H as (ps & o & ops' & g & Eo & Hno & Hgr & Hcl & D & Egrp).
    assert (Hps : regular (y_out y ++ ps)).
    { destruct D as [(n & f & Ea & Eops & Eout)|(_ & _ & Eops & Eout)]; rewrite Eout in Hreg; [|exact Hreg].
      rewrite app_assoc in Hreg. exact (regular_app _ _ Hreg). }
    destruct (Hi (regular_app _ _ Hps)) as (Hc & live & stale & Hs & Hg).
    split; [apply calls_snoc; [exact Hc|discriminate]|]. rewrite Eo in Hs, Hp.
    pose proof (regular_no_fun _ _ Hps Ho (Forall_app_l _ _ _ Hp)) as Hnf.
    apply st_ops_inv in Hs.
    2:{ apply Forall_forall. intros t Hin. rewrite Forall_forall in Hnf. split; [|exact (Hnf t Hin)].
        intros Hopen. destruct t; try contradiction. exact (Hno _ Hin). }
    apply st_open_inv in Hs. destruct Hs as (pre0 & b & live' & -> & Hb & Hs & Hlive).
    assert (Hbal : balanced (TOpen o :: b ++ [TClose c0])).
    { rewrite <- Hcl. apply bal_wrap; assumption. }
    replace ((pre0 ++ TOpen o :: b) ++ [TClose c0]) with (pre0 ++ (TOpen o :: b ++ [TClose c0]))
      by (rewrite <- app_assoc; reflexivity).
    destruct D as [(n & f & Ea & Eops & Eout)|(Hn & Ea & Eops & Eout)].
    + rewrite Eops in Hs. apply st_fun_inv in Hs. destruct Hs as (k' & Ek & Hs). rewrite Ea in Ek, Hlive. simpl in Ek, Hlive.
      injection Ek as <-. rewrite Egrp, Hg, Hlive. destruct (y_argc y') as [|a l] eqn:Ea'.
      * assert (live' = []) by (apply (st_zero _ _ _ _ Hs); reflexivity). subst live'.
        exists [], (length pre0 :: stale). split; [apply st_ext; assumption|reflexivity].
      * exists live', stale. split; [apply st_ext; assumption|reflexivity].
    + rewrite Ea, Eops, Egrp, Hg, Hlive, Ea. destruct (y_argc y) as [|a l] eqn:Ea'.
      * exists live', stale. split; [apply st_ext; assumption|reflexivity].
      * exists live', stale. split; [apply st_ext; assumption|reflexivity].
  - discriminate.
  - destruct (check_comma_position dbg toks (y_grp y) (length pre)) as [[]| |] eqn:Ec; try discriminate. simpl in H.
    apply push_comma_inv in H. destruct H as (ps & o & ops' & n & argc' & Eo & Hno & Ea & ->).
    cbn [y_out y_ops y_argc y_grp] in *.
    destruct (Hi (regular_app _ _ Hreg)) as (Hc & live & stale & Hs & Hg).
    rewrite Eo in Hs, Hp. pose proof (regular_no_fun _ _ Hreg Ho (Forall_app_l _ _ _ Hp)) as Hnf.
    apply st_ops_inv in Hs.
    2:{ apply Forall_forall. intros t Hin. rewrite Forall_forall in Hnf. split; [|exact (Hnf t Hin)].
        intros Hopen. destruct t; try contradiction. exact (Hno _ Hin). }
    rewrite Ea in Hs. split.
    + apply calls_snoc; [exact Hc|]. intros _.
      pose proof Hs as Hs'. apply st_open_inv in Hs'. destruct Hs' as (pre0 & b & live' & -> & Hb & Hs' & Hlive).
      simpl in Hlive. subst live. rewrite Hg in Ec. unfold check_comma_position in Ec.
      destruct (length (pre0 ++ TOpen o :: b) =? 0); [discriminate|].
      destruct (tok_at toks (length (pre0 ++ TOpen o :: b) - 1) is_grouping_open); [discriminate|].
      destruct (tok_at toks (length (pre0 ++ TOpen o :: b) + 1) is_grouping_close); [discriminate|].
      cbn [app] in Ec. destruct (length pre0) as [|l] eqn:El; [destruct dbg; discriminate|].
      unfold tok_at in Ec. destruct (nth_error toks l) as [t|] eqn:En; [|discriminate].
      destruct (is_function t) eqn:Ef; [|discriminate].
      destruct (rev pre0) as [|t' rp] eqn:Er.
      { apply (f_equal (@length tok)) in Er. rewrite rev_length in Er. simpl in Er. lia. }
      apply (f_equal (@rev tok)) in Er. rewrite rev_involutive in Er. simpl in Er. subst pre0.
      rewrite app_length in El. simpl in El.
      assert (length (rev rp) = l) by lia. subst l.
      rewrite Et, <- !app_assoc in En. rewrite nth_error_app2 in En by lia. rewrite Nat.sub_diag in En.
      simpl in En. injection En as <-. destruct t'; try discriminate.
      exists (rev rp), f, o, b. split; [rewrite <- app_assoc; reflexivity|exact Hb].
    + exists live, stale. split; [|exact Hg]. apply st_ext; [exact Hs|apply bal_one; reflexivity].
Qed.

Lemma infix_bracketed : forall toks rpn, infix_to_rpn c dbg toks = Ok rpn -> regular rpn ->
  (forall o, ~ In (TOpen o) rpn) -> balanced toks /\ calls toks.
Proof.
  intros toks rpn H Hr Hn. destruct (infix_inv bracketed toks rpn) as (y & (Ht & Hi) & ->); auto.
  - split; [split; [exact I|constructor]|]. intros _. split; [intros [|? ?] ? E; discriminate|].
    exists [], []. split; [constructor; constructor|reflexivity].
  - intros; eapply step_bracketed; eassumption.
  - destruct (Hi (regular_app _ _ Hr)) as (Hc & live & stale & Hs & _). split; [|exact Hc].
    destruct Ht as [Ho Hp].
    assert (Hs' : st toks (y_ops y ++ []) live (length (y_argc y))) by (rewrite app_nil_r; exact Hs).
    apply st_ops_inv in Hs'.
    + inversion Hs'; subst; assumption.
    + pose proof (regular_no_fun _ _ Hr Ho Hp) as Hnf. apply Forall_forall. intros t Hin. split.
      * intros Hopen. destruct t; try contradiction. apply (Hn c0). apply in_or_app. right. exact Hin.
      * rewrite Forall_forall in Hnf. exact (Hnf t Hin).
Qed.

(** ** What a successful evaluation of a postfix sequence says of it *)

Definition known (t : tok) : Prop :=
  match t with
  | TNumber _ => True
  | TVariable x => get_variable c x <> None
  | TConstant x => get_constant c x <> None
  | TFunction f => get_function c f <> None
  | TBinary o => get_binary c o <> None
  | TUnary u => get_unary c u <> None
  | TArgCount _ => True
  | _ => False
  end.

Lemma bind_ok : forall {A B} (m : M W A) (f : A -> M W B) w b w2, bind m f w = (Ok b, w2) ->
  exists a w1, m w = (Ok a, w1) /\ f a w1 = (Ok b, w2).
Proof.
  intros A B m f w b w2 H. unfold bind in H. destruct (m w) as [[a| |] w1]; try discriminate. eauto.
Qed.

Lemma rpn_ok_known : forall rpn vals ac w vs w', rpn_loop c dbg rpn vals ac w = (Ok vs, w') ->
  Forall known rpn /\ reg (is_some ac) rpn <> None.
Proof.
  induction rpn as [|t rpn IH]; intros vals ac w vs w' H; [split; [constructor|discriminate]|].
  destruct t; cbn [rpn_loop] in H; try discriminate H.
  - destruct (IH _ _ _ _ _ H). split; [constructor; [exact I|assumption]|assumption].
  - destruct (get_variable c x) eqn:E; [|discriminate H]. destruct (IH _ _ _ _ _ H).
    split; [constructor; [simpl; congruence|assumption]|assumption].
  - destruct (get_constant c x) eqn:E; [|discriminate H]. destruct (IH _ _ _ _ _ H).
    split; [constructor; [simpl; congruence|assumption]|assumption].
  - destruct (get_function c f) as [fn|] eqn:E; [|discriminate H]. destruct ac as [n|]; [|discriminate H].
    destruct (pop_args n vals []) as [values' args]. apply bind_ok in H. destruct H as (r & w1 & _ & H).
    destruct (IH _ _ _ _ _ H). split; [constructor; [simpl; congruence|assumption]|assumption].
  - destruct (get_binary c o) as [f|] eqn:E; [|discriminate H]. destruct vals as [|x [|y' vals]]; try discriminate H.
    apply bind_ok in H. destruct H as (r & w1 & _ & H). destruct (IH _ _ _ _ _ H).
    split; [constructor; [simpl; congruence|assumption]|assumption].
  - destruct (get_unary c u) as [f|] eqn:E; [|discriminate H]. destruct vals as [|x vals]; try discriminate H.
    apply bind_ok in H. destruct H as (r & w1 & _ & H). destruct (IH _ _ _ _ _ H).
    split; [constructor; [simpl; congruence|assumption]|assumption].
  - destruct (dbg && is_some ac); [discriminate H|]. destruct (IH _ _ _ _ _ H).
    split; [constructor; [exact I|assumption]|assumption].
Qed.

Lemma eval_ok_inv : forall toks w v w', eval_tokens c dbg toks w = (Ok v, w') ->
  exists rpn, infix_to_rpn c dbg toks = Ok rpn /\ rpn_loop c dbg rpn [] None w = (Ok [v], w').
Proof.
  intros toks w v w' H. unfold eval_tokens in H. apply bind_ok in H. destruct H as (rpn & w1 & E & H).
  unfold lift in E. injection E as E <-. exists rpn. split; [exact E|].
  apply bind_ok in H. destruct H as (vs & w2 & E2 & H). destruct vs as [|v1 [|v2 vs]]; try discriminate H.
  unfold ret in H. injection H as -> ->. exact E2.
Qed.

Theorem eval_ok_balanced : forall toks w v w', eval_tokens c dbg toks w = (Ok v, w') -> balanced toks /\ calls toks.
Proof.
  intros toks w v w' H. apply eval_ok_inv in H. destruct H as (rpn & E & H).
  apply rpn_ok_known in H. destruct H as (Hk & Hr). apply (infix_bracketed toks rpn E Hr).
  intros o Hin. rewrite Forall_forall in Hk. exact (Hk _ Hin).
Qed.

(** ** Conservation of operands and operations *)

Definition conserved (n : nat) (pre : list tok) (y : yard) : Prop :=
  operands (y_out y) = operands pre /\ Forall (fun t => atom_token t = false) (y_ops y) /\
  Permutation (operations (y_out y ++ y_ops y)) (operations pre ++ repeat (TBinary star) n) /\
  Forall (fun t => match t with TUnknown _ | TArgCount _ => False | TBinary o => get_binary c o <> None
                   | TUnary u => get_unary c u <> None | _ => True end) pre.

Lemma operations_app : forall a b : list tok, operations (a ++ b) = operations a ++ operations b.
Proof. intros. apply filter_app. Qed.
Lemma operands_app : forall a b : list tok, operands (a ++ b) = operands a ++ operands b.
Proof. intros. apply filter_app. Qed.
Lemma operands_none : forall l : list tok, Forall (fun t => atom_token t = false) l -> operands l = [].
Proof. intros l H. induction H as [|t l Ht Hl IH]; [reflexivity|]. unfold operands in *. simpl. rewrite Ht. exact IH. Qed.

(** The number of [*] inserted while reading [pre], when [nx] follows. *)
Fixpoint stars (toks : list tok) (nx : option tok) : nat :=
  match toks with
  | [] => 0
  | t :: r => (if implicit_here c t (match r with [] => nx | n :: _ => Some n end) then 1 else 0) + stars r nx
  end.

Lemma stars_snoc : forall pre t nx, stars (pre ++ [t]) nx = stars pre (Some t) + (if implicit_here c t nx then 1 else 0).
Proof.
  induction pre as [|a pre IH]; intros t nx.
  - simpl. destruct (implicit_here c t nx); reflexivity.
  - simpl. rewrite IH. destruct pre as [|b pre]; simpl; lia.
Qed.

Lemma implicit_none : forall t, implicit_here c t None = false.
Proof. intros t. unfold implicit_here. destruct t; apply andb_false_r. Qed.

Lemma stars_juxtapositions : forall toks, stars toks None = if implicit_mul (cfg c) then juxtapositions toks else 0.
Proof.
  assert (Hm : forall a b, implicit_here c a (Some b) = implicit_mul (cfg c) && multiplies a b).
  { intros a b. unfold implicit_here, multiplies. reflexivity. }
  induction toks as [|t toks IH]; [destruct (implicit_mul (cfg c)); reflexivity|].
  simpl. rewrite IH. destruct toks as [|b toks].
  - rewrite implicit_none. destruct (implicit_mul (cfg c)); reflexivity.
  - rewrite Hm. destruct (implicit_mul (cfg c)); simpl; reflexivity.
Qed.

Lemma perm_move : forall (a b d e : list tok), Permutation (a ++ b ++ d ++ e) ((a ++ d ++ b) ++ e).
Proof.
  intros. rewrite <- !app_assoc. apply Permutation_app_head. rewrite !app_assoc. apply Permutation_app_tail.
  apply Permutation_app_comm.
Qed.

Lemma step_conserved : forall toks pre t rest y y', toks = pre ++ t :: rest ->
  conserved (stars pre (Some t)) pre y -> yard_step c dbg toks (length pre) t (hd_error rest) y = Ok y' ->
  conserved (stars (pre ++ [t]) (hd_error rest)) (pre ++ [t]) (push_implicit c t (hd_error rest) y').
Proof.
  intros toks pre t rest y y' Et (Ha & Hn & Hp & Hk) H.
  enough (Hm : operands (y_out y') = operands (pre ++ [t]) /\ Forall (fun t => atom_token t = false) (y_ops y') /\
     Permutation (operations (y_out y' ++ y_ops y')) (operations (pre ++ [t]) ++ repeat (TBinary star) (stars pre (Some t))) /\
     match t with TUnknown _ | TArgCount _ => False | TBinary o => get_binary c o <> None
                   | TUnary u => get_unary c u <> None | _ => True end).
  { destruct Hm as (Ha' & Hn' & Hp' & Hk'). destruct (push_implicit_ops c t (hd_error rest) y') as (E1 & E2 & E3 & E4).
    unfold conserved. rewrite E1, E4, stars_snoc. split; [exact Ha'|]. split; [|split].
    - apply Forall_app. split; [|exact Hn']. destruct (implicit_here c t (hd_error rest)); repeat constructor.
    - destruct (implicit_here c t (hd_error rest)); simpl.
      + rewrite Nat.add_1_r. simpl repeat. rewrite operations_app in *. simpl.
        apply Permutation_trans with (TBinary star :: operations (y_out y') ++ operations (y_ops y')).
        * apply Permutation_sym, Permutation_middle.
        * eapply Permutation_trans; [apply perm_skip; exact Hp'|]. apply Permutation_middle.
      + rewrite Nat.add_0_r. exact Hp'.
    - apply Forall_app. split; [exact Hk|]. constructor; [exact Hk'|constructor]. }
  rewrite !operands_app, !operations_app.
  rewrite operations_app in Hp.
  assert (Hatom : atom_token t = true -> push_number c t y = y' -> operation_token t = false ->
     operands (y_out y') = operands pre ++ operands [t] /\ Forall (fun t => atom_token t = false) (y_ops y') /\
     Permutation (operations (y_out y') ++ operations (y_ops y')) ((operations pre ++ operations [t]) ++ repeat (TBinary star) (stars pre (Some t)))).
  { intros Hat <- Hop. assert (Eo : operations [t] = []) by (unfold operations; simpl; rewrite Hop; reflexivity).
    destruct (push_number_inv c t y) as [E|(u & ops' & Eops & E)]; rewrite E; cbn [y_out y_ops].
    - rewrite operands_app, operations_app, Eo, Ha, !app_nil_r. auto.
    - rewrite Eops in Hn, Hp. rewrite !operands_app, !operations_app, Eo, Ha. simpl operands at 3.
      inversion Hn as [|? ? _ Hn']; subst. rewrite !app_nil_r. split; [reflexivity|]. split; [exact Hn'|].
      simpl. rewrite <- app_assoc. exact Hp. }
  destruct t; cbn [yard_step] in H.
  - injection H as H. destruct (Hatom eq_refl H eq_refl) as (? & ? & ?). auto.
  - injection H as H. destruct (Hatom eq_refl H eq_refl) as (? & ? & ?). auto.
  - injection H as H. destruct (Hatom eq_refl H eq_refl) as (? & ? & ?). auto.
  - destruct (_ && _); [discriminate|]. injection H as <-. cbn [y_out y_ops]. simpl operands at 3. rewrite app_nil_r.
    split; [exact Ha|]. split; [constructor; [reflexivity|exact Hn]|]. split; [|exact I].
    simpl. rewrite <- app_assoc. simpl.
    eapply Permutation_trans; [apply Permutation_sym, Permutation_middle|].
    eapply Permutation_trans; [apply perm_skip; exact Hp|]. apply Permutation_middle.
  - apply push_binary_inv in H. destruct H as (Hb & ps & ops' & Eo & F & ->). cbn [y_out y_ops].
    rewrite Eo in Hn, Hp. rewrite operands_app, (operands_none ps) by exact (Forall_app_l _ _ _ Hn).
    simpl operands at 3. rewrite !app_nil_r. split; [exact Ha|].
    split; [constructor; [reflexivity|exact (Forall_app_r _ _ _ Hn)]|]. split; [|exact Hb].
    rewrite operations_app in *. simpl. rewrite <- !app_assoc in *. simpl.
    rewrite app_assoc. eapply Permutation_trans; [apply Permutation_sym, Permutation_middle|]. rewrite <- app_assoc.
    eapply Permutation_trans; [apply perm_skip; exact Hp|]. apply Permutation_middle.
  - apply push_unary_inv in H. destruct H as (Hu & [->| ->]); cbn [y_out y_ops]; simpl operands at 3; rewrite ?operands_app, ?app_nil_r.
    + split; [exact Ha|]. split; [constructor; [reflexivity|exact Hn]|]. split; [|exact Hu].
      simpl. rewrite <- app_assoc. simpl.
      eapply Permutation_trans; [apply Permutation_sym, Permutation_middle|].
      eapply Permutation_trans; [apply perm_skip; exact Hp|]. apply Permutation_middle.
    + split; [exact Ha|]. split; [exact Hn|]. split; [|exact Hu].
      rewrite operations_app. simpl. rewrite <- !app_assoc. simpl.
      eapply Permutation_trans; [apply Permutation_sym, Permutation_middle|].
      eapply Permutation_trans; [apply perm_skip; exact Hp|]. apply Permutation_middle.
  - discriminate.
  - injection H as <-. cbn [y_out y_ops]. simpl operands at 3. simpl operations at 3. simpl operations at 4. rewrite !app_nil_r.
    split; [exact Ha|]. split; [constructor; [reflexivity|exact Hn]|]. split; [|exact I]. exact Hp.
  - apply step_close_inv in H. destruct H as (ps & o & ops' & g & Eo & Hno & Hgr & Hcl & D & Egrp).
    rewrite Eo in Hn, Hp. pose proof (Forall_app_l _ _ _ Hn) as Hps. pose proof (Forall_app_r _ _ _ Hn) as Hn'.
    inversion Hn' as [|? ? _ Hn2]; subst. simpl operands at 3. simpl operations at 4. rewrite !app_nil_r.
    rewrite operations_app in Hp. simpl in Hp.
    destruct D as [(n & f & Ea & Eops & Eout)|(Hx & Ea & Eops & Eout)]; rewrite Eout.
    + rewrite !operands_app, (operands_none ps Hps). simpl operands at 2. rewrite !app_nil_r. split; [exact Ha|].
      rewrite Eops in Hn2, Hp. inversion Hn2 as [|? ? _ Hn3]; subst. split; [exact Hn3|]. split; [|exact I].
      rewrite !operations_app. simpl. rewrite <- !app_assoc. simpl. exact Hp.
    + rewrite operands_app, (operands_none ps Hps), app_nil_r. split; [exact Ha|]. rewrite Eops. split; [exact Hn2|].
      split; [|exact I]. rewrite operations_app, <- app_assoc. exact Hp.
  - discriminate.
  - destruct (check_comma_position dbg toks (y_grp y) (length pre)) as [[]| |] eqn:Ec; try discriminate. simpl in H.
    apply push_comma_inv in H. destruct H as (ps & o & ops' & n & argc' & Eo & Hno & Ea & ->).
    cbn [y_out y_ops]. simpl operands at 3. simpl operations at 4. rewrite !app_nil_r. rewrite Eo in Hn, Hp.
    rewrite operands_app, (operands_none ps) by exact (Forall_app_l _ _ _ Hn). rewrite app_nil_r.
    split; [exact Ha|]. split; [exact (Forall_app_r _ _ _ Hn)|]. split; [|exact I].
    rewrite !operations_app in *. rewrite <- !app_assoc in *. exact Hp.
Qed.

Theorem infix_conserved : forall toks rpn, infix_to_rpn c dbg toks = Ok rpn ->
  operands rpn = operands toks /\
  Permutation (operations rpn)
    (operations toks ++ repeat (TBinary star) (if implicit_mul (cfg c) then juxtapositions toks else 0)) /\
  Forall (fun t => match t with TUnknown _ | TArgCount _ => False | TBinary o => get_binary c o <> None
                   | TUnary u => get_unary c u <> None | _ => True end) toks.
Proof.
  intros toks rpn H.
  destruct (infix_inv (fun pre y => forall rest, toks = pre ++ rest -> conserved (stars pre (hd_error rest)) pre y) toks rpn)
    as (y & Hi & ->); auto.
  - intros rest _. repeat split; try constructor.
  - intros pre t rest y y' Et Hi Hs rest' Et'. rewrite Et, <- app_assoc in Et'.
    apply app_inv_head in Et'. simpl in Et'. injection Et' as <-. eapply step_conserved; try eassumption.
    exact (Hi (t :: rest) Et).
  - destruct (Hi [] (eq_sym (app_nil_r toks))) as (Ha & Hn & Hp & Hk). simpl in Hp.
    rewrite stars_juxtapositions in Hp. split; [|auto]. rewrite operands_app, Ha, (operands_none _ Hn), app_nil_r. reflexivity.
Qed.

(** ** No panic *)

Theorem eval_no_panic : forall toks, Forall (calls_safely c) toks ->
  (implicit_mul (cfg c) = true -> calls_safely c (TBinary times)) ->
  forall w, fst (eval_tokens c dbg toks w) <> Panic.
Proof.
  intros toks Hs Hstar w. unfold eval_tokens, bind at 1, lift.
  pose proof (infix_no_panic c dbg toks) as Hn.
  destruct (infix_to_rpn c dbg toks) as [rpn| |] eqn:E; [|discriminate|contradiction].
  apply bind_no_panic; [apply rpn_no_panic; [eapply infix_paired; exact E|]|].
  - destruct (infix_conserved toks rpn E) as (_ & Hops & _). apply Forall_forall. intros t Hin.
    destruct (operation_token t) eqn:Eo; [|destruct t; try discriminate Eo; exact I].
    assert (Hi : In t (operations toks ++ repeat (TBinary star) (if implicit_mul (cfg c) then juxtapositions toks else 0))).
    { eapply Permutation_in; [exact Hops|]. apply filter_In. auto. }
    apply in_app_or in Hi. destruct Hi as [Hi|Hi].
    + apply filter_In in Hi. destruct Hi as [Hi _]. rewrite Forall_forall in Hs. exact (Hs t Hi).
    + apply repeat_spec in Hi as Ht. subst t. destruct (implicit_mul (cfg c)) eqn:Em; [|destruct Hi]. exact (Hstar eq_refl).
  - intros [|v [|v' vs]] w'; discriminate.
Qed.

End Tokens2.
