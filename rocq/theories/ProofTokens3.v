(** * Debug and release builds agree; counting; meaningful tokens *)
From Coq Require Import List NArith Bool Arith Lia Permutation.
From Verif Require Import ModelBase ModelContext ModelEvaluator SpecExpr SpecGrammar SpecTokens ProofTokens ProofTokens2.
Import ListNotations.

Section Dbg.
Context {V W : Type}.
Variable c : ctx V W.
Notation tok := (token V).

Lemma step_dbg : forall toks pos (t : tok) nx y, Forall (fun p => 1 <= p) (y_grp y) ->
  yard_step c true toks pos t nx y = yard_step c false toks pos t nx y.
Proof.
  intros toks pos t nx y Hg. destruct t; try reflexivity. cbn [yard_step]. unfold check_comma_position.
  destruct (y_grp y) as [|[|l] grp]; try reflexivity. inversion Hg; lia.
Qed.

Lemma loop_dbg : forall toks rest pre y, toks = pre ++ rest -> no_zero (length pre) y ->
  yard_loop c true toks (length pre) rest y = yard_loop c false toks (length pre) rest y.
Proof.
  intros toks. induction rest as [|t rest IH]; intros pre y Et Hi; [reflexivity|].
  cbn [yard_loop]. rewrite (step_dbg toks (length pre) t (hd_error rest) y (proj1 Hi)).
  destruct (yard_step c false toks (length pre) t (hd_error rest) y) as [y1| |] eqn:E; try reflexivity.
  cbn [rbind]. pose proof (step_no_zero c false toks pre t rest y y1 Et Hi E) as Hi'.
  specialize (IH (pre ++ [t]) (push_implicit c t (hd_error rest) y1)).
  rewrite app_length in IH, Hi'. simpl in IH, Hi'. rewrite Nat.add_1_r in IH, Hi'. apply IH; [|exact Hi'].
  rewrite Et, <- app_assoc. reflexivity.
Qed.

Lemma infix_dbg : forall toks, infix_to_rpn c true toks = infix_to_rpn c false toks.
Proof.
  intros toks. unfold infix_to_rpn. pose proof (loop_dbg toks toks [] (Yard [] [] [] []) eq_refl) as H.
  simpl length in H. rewrite H; [reflexivity|]. split; [constructor|auto].
Qed.

Lemma rpn_dbg : forall rpn, paired rpn -> forall vals w,
  rpn_loop c true rpn vals None w = rpn_loop c false rpn vals None w.
Proof.
  apply (paired_ind (fun rpn => forall vals w, rpn_loop c true rpn vals None w = rpn_loop c false rpn vals None w)).
  - reflexivity.
  - intros n f l Hl IH vals w. cbn [rpn_loop is_some andb]. destruct (get_function c f) as [fn|]; [|reflexivity].
    destruct (pop_args n vals []) as [values' args]. unfold bind. destruct (fn_call fn (rev args) w) as [[] ?]; auto.
  - intros t l Ht Hl IH vals w. destruct t; cbn [rpn_loop]; try apply IH; try reflexivity.
    + destruct (get_variable c x); [apply IH|reflexivity].
    + destruct (get_constant c x); [apply IH|reflexivity].
    + destruct (get_binary c o) as [f|]; [|reflexivity]. destruct vals as [|x [|y vals]]; try reflexivity.
      unfold bind. destruct (bf_call f y x w) as [[] ?]; auto.
    + destruct (get_unary c u) as [f|]; [|reflexivity]. destruct vals as [|x vals]; try reflexivity.
      unfold bind. destruct (uf_call f x w) as [[] ?]; auto.
    + contradiction.
Qed.

Theorem eval_dbg : forall toks w, eval_tokens c true toks w = eval_tokens c false toks w.
Proof.
  intros toks w. unfold eval_tokens. rewrite infix_dbg. unfold lift, bind at 1. symmetry. unfold bind at 1.
  destruct (infix_to_rpn c false toks) as [rpn| |] eqn:E; try reflexivity.
  unfold bind. rewrite (rpn_dbg rpn (infix_paired c false toks rpn E)). reflexivity.
Qed.
End Dbg.

Section Count.
Context {V W : Type}.
Variable c : ctx V W.
Variable dbg : bool.
Notation tok := (token V).

(** ** Argument counts and commas *)
Fixpoint ac_sum (l : list tok) : nat :=
  match l with [] => 0 | TArgCount n :: l' => n + ac_sum l' | _ :: l' => ac_sum l' end.
Fixpoint ac_num (l : list tok) : nat :=
  match l with [] => 0 | TArgCount n :: l' => S (ac_num l') | _ :: l' => ac_num l' end.
Fixpoint total (l : list nat) : nat := match l with [] => 0 | n :: l' => n + total l' end.

Lemma ac_sum_app : forall a b, ac_sum (a ++ b) = ac_sum a + ac_sum b.
Proof. induction a as [|t a IH]; intros b; simpl; auto. destruct t; auto. rewrite IH. lia. Qed.
Lemma ac_num_app : forall a b, ac_num (a ++ b) = ac_num a + ac_num b.
Proof. induction a as [|t a IH]; intros b; simpl; auto. destruct t; auto. rewrite IH. lia. Qed.
Lemma ac_plain : forall l, Forall plain_token l -> ac_sum l = 0 /\ ac_num l = 0.
Proof. intros l H. induction H as [|t l Ht Hl [IH1 IH2]]; simpl; auto. destruct t; auto. contradiction. Qed.

Lemma count_app : forall p (a b : list tok), count p (a ++ b) = count p a + count p b.
Proof. intros. unfold count. rewrite filter_app, app_length. reflexivity. Qed.

Definition tallied (pre : list tok) (y : yard) : Prop :=
  tidy y /\ ac_sum (y_out y) + total (y_argc y) = count is_comma_token pre + ac_num (y_out y).

Lemma step_tallied : forall toks pre t rest y y',
  tallied pre y -> yard_step c dbg toks (length pre) t (hd_error rest) y = Ok y' ->
  tallied (pre ++ [t]) (push_implicit c t (hd_error rest) y').
Proof.
  intros toks pre t rest y y' [Ht Hi] H. split; [eapply step_tidy; eassumption|].
  destruct (push_implicit_ops c t (hd_error rest) y') as (E1 & E2 & E3 & E4). rewrite E1, E2, count_app.
  clear E1 E2 E3 E4. destruct Ht as [Ho Hp].
  assert (Hnum : forall t, atom_token t = true -> y' = push_number c t y ->
     ac_sum (y_out y') + total (y_argc y') = count is_comma_token pre + 0 + ac_num (y_out y')).
  { clear H. intros t' Ha ->. destruct (push_number_inv c t' y) as [E|(u & ops' & Eo & E)]; rewrite E; cbn [y_out y_argc];
    rewrite !ac_sum_app, !ac_num_app; destruct t'; try discriminate Ha; simpl; lia. }
  destruct t; cbn [yard_step] in H; unfold count at 2; cbn [filter is_comma_token length]; try discriminate H.
  - injection H as H. eapply Hnum; [|symmetry; exact H]. reflexivity.
  - injection H as H. eapply Hnum; [|symmetry; exact H]. reflexivity.
  - injection H as H. eapply Hnum; [|symmetry; exact H]. reflexivity.
  - destruct (_ && _); [discriminate|]. injection H as <-. simpl. lia.
  - apply push_binary_inv in H. destruct H as (_ & ps & ops' & Eo & F & ->). cbn [y_out y_argc].
    rewrite Eo in Hp. destruct (ac_plain ps (Forall_app_l _ _ _ Hp)) as [Es En].
    rewrite ac_sum_app, ac_num_app, Es, En. lia.
  - apply push_unary_inv in H. destruct H as (_ & [->| ->]); cbn [y_out y_argc]; rewrite ?ac_sum_app, ?ac_num_app; simpl; lia.
  - injection H as <-. cbn [y_out y_argc]. lia.
  - apply step_close_inv in H. destruct H as (ps & o & ops' & g & Eo & _ & _ & _ & D & _). rewrite Eo in Hp.
    destruct (ac_plain ps (Forall_app_l _ _ _ Hp)) as [Es En].
    destruct D as [(n & f & Ea & Eops & Eout)|(_ & Ea & Eops & Eout)]; rewrite Eout, ?Ea;
      rewrite !ac_sum_app, !ac_num_app, Es, En; simpl; [|lia]. rewrite Ea in Hi. simpl in Hi. lia.
  - destruct (check_comma_position dbg toks (y_grp y) (length pre)); try discriminate. simpl in H.
    apply push_comma_inv in H. destruct H as (ps & o & ops' & n & argc' & Eo & _ & Ea & ->). rewrite Eo in Hp.
    destruct (ac_plain ps (Forall_app_l _ _ _ Hp)) as [Es En]. cbn [y_out y_argc].
    rewrite ac_sum_app, ac_num_app, Es, En. rewrite Ea in Hi. simpl in *. lia.
Qed.

Lemma infix_tallied : forall toks rpn, infix_to_rpn c dbg toks = Ok rpn ->
  ac_sum rpn <= count is_comma_token toks + ac_num rpn.
Proof.
  intros toks rpn H. destruct (infix_inv c dbg tallied toks rpn) as (y & ((Ho & Hp) & Hi) & ->); auto.
  - split; [split; [exact I|constructor]|reflexivity].
  - intros; eapply step_tallied; eassumption.
  - destruct (ac_plain _ Hp) as [Es En]. rewrite ac_sum_app, ac_num_app, Es, En. lia.
Qed.

(** ** Values on the stack *)

Lemma pop_args_length : forall n (vals args : list V), length (fst (pop_args n vals args)) + n >= length vals.
Proof.
  induction n as [|n IH]; intros vals args; simpl; [lia|]. destruct vals as [|v vals]; simpl.
  - lia.
  - specialize (IH vals (args ++ [v])). lia.
Qed.

Lemma rpn_count : forall rpn, paired rpn -> forall vals w vs w',
  rpn_loop c dbg rpn vals None w = (Ok vs, w') ->
  length vals + count atom_token rpn + count is_function rpn <= length vs + count is_binary_token rpn + ac_sum rpn /\
  ac_num rpn = count is_function rpn /\
  (count is_function rpn = 0 -> length vals + count atom_token rpn = length vs + count is_binary_token rpn).
Proof.
  apply (paired_ind (fun rpn => forall vals w vs w', rpn_loop c dbg rpn vals None w = (Ok vs, w') ->
    length vals + count atom_token rpn + count is_function rpn <= length vs + count is_binary_token rpn + ac_sum rpn /\
    ac_num rpn = count is_function rpn /\
    (count is_function rpn = 0 -> length vals + count atom_token rpn = length vs + count is_binary_token rpn))).
  - intros vals w vs w' H. unfold rpn_loop, ret in H. injection H as <- <-. unfold count. simpl. lia.
  - intros n f l Hl IH vals w vs w' H. cbn [rpn_loop is_some] in H. rewrite andb_false_r in H.
    destruct (get_function c f) as [fn|]; [|discriminate].
    pose proof (pop_args_length n vals []) as Hpl.
    destruct (pop_args n vals []) as [values' args]. cbn [fst] in Hpl. apply bind_ok in H. destruct H as (r & w1 & _ & H).
    apply IH in H. unfold count in *. simpl in *. lia.
  - intros t l Ht Hl IH vals w vs w' H.
    destruct t; cbn [rpn_loop] in H; try discriminate H; try contradiction.
    + apply IH in H. unfold count in *. simpl in *. lia.
    + destruct (get_variable c x); [|discriminate]. apply IH in H. unfold count in *. simpl in *. lia.
    + destruct (get_constant c x); [|discriminate]. apply IH in H. unfold count in *. simpl in *. lia.
    + destruct (get_function c f); discriminate.
    + destruct (get_binary c o) as [f|]; [|discriminate]. destruct vals as [|x [|y' vals]]; try discriminate H.
      apply bind_ok in H. destruct H as (r & w1 & _ & H). apply IH in H. unfold count in *. simpl in *. lia.
    + destruct (get_unary c u) as [f|]; [|discriminate]. destruct vals as [|x vals]; try discriminate H.
      apply bind_ok in H. destruct H as (r & w1 & _ & H). apply IH in H. unfold count in *. simpl in *. lia.
Qed.

Lemma filter_length_perm : forall (p : tok -> bool) l l', Permutation l l' -> length (filter p l) = length (filter p l').
Proof.
  intros p l l' H. induction H as [|x l l' H IH|x y l|l l' l'' H1 IH1 H2 IH2]; simpl; auto.
  - destruct (p x); simpl; auto.
  - destruct (p x), (p y); reflexivity.
  - congruence.
Qed.

Lemma count_operations : forall p (l : list tok), (forall t, p t = true -> operation_token t = true) ->
  count p l = length (filter p (operations l)).
Proof.
  intros p l Hp. unfold count. induction l as [|t l IH]; [reflexivity|]. unfold operations. cbn [filter].
  destruct (operation_token t) eqn:E; cbn [filter]; destruct (p t) eqn:Ep; simpl; rewrite ?IH; auto.
  rewrite (Hp t Ep) in E. discriminate.
Qed.

Lemma filter_stars_binary : forall n, length (filter is_binary_token (repeat (@TBinary V star) n)) = n.
Proof. induction n as [|n IH]; simpl; auto. Qed.
Lemma filter_stars_function : forall n, length (filter is_function (repeat (@TBinary V star) n)) = 0.
Proof. induction n as [|n IH]; simpl; auto. Qed.

Theorem eval_counts : forall toks w v w', eval_tokens c dbg toks w = (Ok v, w') ->
  let stars := if implicit_mul (cfg c) then juxtapositions toks else 0 in
  count atom_token toks <= 1 + count is_binary_token toks + stars + count is_comma_token toks /\
  (count is_function toks = 0 -> count atom_token toks = 1 + count is_binary_token toks + stars).
Proof.
  intros toks w v w' H stars. apply eval_ok_inv in H. destruct H as (rpn & E & H).
  pose proof (infix_paired c dbg toks rpn E) as Hp. pose proof (infix_tallied toks rpn E) as Ht.
  destruct (infix_conserved c dbg toks rpn E) as (Ha & Hops & _). fold stars in Hops.
  apply (rpn_count rpn Hp) in H. destruct H as (H1 & H2 & H3).
  assert (Eb : count is_binary_token rpn = count is_binary_token toks + stars).
  { rewrite !(count_operations is_binary_token) by (intros []; simpl; congruence).
    rewrite (filter_length_perm _ _ _ Hops), filter_app, app_length. f_equal.
    apply filter_stars_binary. }
  assert (Ef : count is_function rpn = count is_function toks).
  { rewrite !(count_operations is_function) by (intros []; simpl; congruence).
    rewrite (filter_length_perm _ _ _ Hops), filter_app, app_length.
    replace (length (filter is_function (repeat (TBinary star) stars))) with 0; [lia|].
    symmetry. apply filter_stars_function. }
  assert (Eat : count atom_token rpn = count atom_token toks).
  { unfold count. fold (operands rpn). rewrite Ha. reflexivity. }
  rewrite Eb, Ef, Eat in *. simpl in *. split; [lia|]. intros Hz. specialize (H3 Hz). lia.
Qed.

Theorem eval_meaningful : forall toks w v w', eval_tokens c dbg toks w = (Ok v, w') -> Forall (meaningful c) toks.
Proof.
  intros toks w v w' H. apply eval_ok_inv in H. destruct H as (rpn & E & H).
  destruct (infix_conserved c dbg toks rpn E) as (Ha & Hops & Hreg).
  apply rpn_ok_known in H. destruct H as (Hk & _). rewrite Forall_forall in Hk, Hreg. apply Forall_forall.
  assert (Hin : forall t, In t toks -> atom_token t = true \/ operation_token t = true -> In t rpn).
  { intros t Ht [Hat|Hot].
    - assert (Hi : In t (operands rpn)). { rewrite Ha. apply filter_In. auto. } apply filter_In in Hi. apply Hi.
    - assert (Hi : In t (operations rpn)).
      { eapply Permutation_in; [apply Permutation_sym; exact Hops|]. apply in_or_app. left. apply filter_In. auto. }
      apply filter_In in Hi. apply Hi. }
  assert (Hsome : forall {A} (o : option A), o <> None -> exists a, o = Some a).
  { intros A [a|] Hn; [eauto|congruence]. }
  intros t Ht. pose proof (Hreg t Ht) as Hr. pose proof (Hin t Ht) as Hi.
  destruct t; simpl in *; auto.
  - apply Hsome. exact (Hk _ (Hi (or_introl eq_refl))).
  - apply Hsome. exact (Hk _ (Hi (or_introl eq_refl))).
  - apply Hsome. exact (Hk _ (Hi (or_intror eq_refl))).
Qed.

End Count.
