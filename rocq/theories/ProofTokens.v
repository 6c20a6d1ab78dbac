(** * Invariants of the conversion for arbitrary token sequences *)
From Coq Require Import List NArith Bool Arith Lia Permutation.
From Verif Require Import ModelBase ModelContext ModelEvaluator SpecExpr SpecGrammar SpecTokens.
Import ListNotations.

Section Tokens.
Context {V W : Type}.
Variable c : ctx V W.
Variable dbg : bool.
Notation tok := (token V).
Notation yard := (@yard V).

(** ** Induction over the loop *)
Lemma loop_invariant : forall (I : list tok -> yard -> Prop) toks,
  (forall pre t rest y y', toks = pre ++ t :: rest -> I pre y ->
     yard_step c dbg toks (length pre) t (hd_error rest) y = Ok y' ->
     I (pre ++ [t]) (push_implicit c t (hd_error rest) y')) ->
  forall rest pre y y', toks = pre ++ rest -> I pre y ->
  yard_loop c dbg toks (length pre) rest y = Ok y' -> I toks y'.
Proof.
  intros I toks Hstep. induction rest as [|t rest IH]; intros pre y y' Et Hi H; simpl in H.
  - injection H as <-. rewrite Et, app_nil_r. exact Hi.
  - destruct (yard_step c dbg toks (length pre) t (hd_error rest) y) as [y1| |] eqn:E; try discriminate H.
    simpl in H. apply (IH (pre ++ [t]) (push_implicit c t (hd_error rest) y1) y').
    + rewrite Et, <- app_assoc. reflexivity.
    + eapply Hstep; eassumption.
    + rewrite app_length. simpl. rewrite Nat.add_1_r. exact H.
Qed.

(** ** No panic *)

Definition no_zero (pos : nat) (y : yard) : Prop :=
  Forall (fun p => 1 <= p) (y_grp y) /\ (pos = 0 -> y_argc y = []).

Lemma close_loop_cases : forall cl ops out argc,
  (exists k, close_loop c cl out ops argc = Err k) \/
  (exists ps o ops' g, ops = ps ++ TOpen o :: ops' /\ (forall s, ~ In (TOpen s) ps) /\
     grouping_new o = Some g /\ grouping_close g = cl /\
     ((exists n argc' f ops'', argc = n :: argc' /\ ops' = TFunction f :: ops'' /\
        close_loop c cl out ops argc = Ok (out ++ ps ++ [TArgCount (n + 1); TFunction f], ops'', argc')) \/
      ((argc = [] \/ match ops' with TFunction _ :: _ => False | _ => True end) /\
        close_loop c cl out ops argc = Ok (out ++ ps, ops', argc)))).
Proof.
  induction ops as [|t ops IH]; intros out argc.
  - left. eexists. reflexivity.
  - assert (Hskip : (forall s, t <> TOpen s) -> close_loop c cl out (t :: ops) argc = close_loop c cl (out ++ [t]) ops argc).
    { intros Hn. destruct t; try reflexivity. exfalso. eapply Hn. reflexivity. }
    assert (Hd : (exists ch, t = TOpen ch) \/ (forall s, t <> TOpen s)).
    { destruct t as [v|x|x|f|o|u|n|ch|ch|s|]; try (right; discriminate). left. exists ch. reflexivity. }
    destruct Hd as [[ch ->]|Hd].
    2:{ rewrite (Hskip Hd). destruct (IH (out ++ [t]) argc) as [[k E]|(ps & o' & ops' & g & -> & Hps & Hg & Hcl & D)];
          [left; exists k; exact E|right; exists (t :: ps), o', ops', g].
         split; [reflexivity|]; split; [intros s' [Hd'|Hin]; [exact (Hd _ Hd')|exact (Hps s' Hin)]|];
         split; [exact Hg|]; split; [exact Hcl|].
         destruct D as [(n' & argc' & f' & ops'' & -> & -> & E)|[Hn E]].
         - left; exists n', argc', f', ops''; split; [reflexivity|]; split; [reflexivity|]; rewrite E, <- app_assoc; reflexivity.
         - right; split; [exact Hn|]; rewrite E, <- app_assoc; reflexivity. }
    simpl. unfold get_group_symbol. destruct (grouping_new ch) as [g|] eqn:Hg; simpl; [|left; eexists; reflexivity].
    destruct (char_eqb (grouping_close g) cl) eqn:Ecl; [|left; eexists; reflexivity].
    right. apply N.eqb_eq in Ecl. exists [], ch, ops, g. split; [reflexivity|]. split; [intros s []|].
    split; [exact Hg|]. split; [exact Ecl|].
    destruct argc as [|n argc].
    + right. split; [left; reflexivity|]. rewrite app_nil_r. reflexivity.
    + destruct ops as [|[] ops]; try (right; split; [right; exact I|]; rewrite app_nil_r; reflexivity).
      left. exists n, argc, f, ops. auto.
Qed.

Lemma comma_loop_cases : forall ops (out : list tok),
  (exists k, comma_loop out ops = Err k) \/
  (exists ps o ops', ops = ps ++ TOpen o :: ops' /\ (forall s, ~ In (TOpen s) ps) /\
     comma_loop out ops = Ok (out ++ ps, TOpen o :: ops')).
Proof.
  induction ops as [|t ops IH]; intros out.
  - left. eexists. reflexivity.
  - assert (Hskip : (forall s, t <> TOpen s) -> comma_loop out (t :: ops) = comma_loop (out ++ [t]) ops).
    { intros Hn. destruct t; try reflexivity. exfalso. eapply Hn. reflexivity. }
    assert (Hd : (exists ch, t = TOpen ch) \/ (forall s, t <> TOpen s)).
    { destruct t as [v|x|x|f|o|u|n|ch|ch|s|]; try (right; discriminate). left. exists ch. reflexivity. }
    destruct Hd as [[ch ->]|Hd].
    2:{ rewrite (Hskip Hd). destruct (IH (out ++ [t])) as [[k E]|(ps & o' & ops' & -> & Hps & E)];
          [left; exists k; exact E|right; exists (t :: ps), o', ops'].
         split; [reflexivity|]; split; [intros s' [Hd'|Hin]; [exact (Hd _ Hd')|exact (Hps s' Hin)]|].
         rewrite E, <- app_assoc; reflexivity. }
    right. exists [], ch, ops. split; [reflexivity|]. split; [intros s []|]. simpl. rewrite app_nil_r. reflexivity.
Qed.

Lemma pop_operators_cases : forall f ops out, exists ps ops', ops = ps ++ ops' /\
  pop_operators c f out ops = (out ++ ps, ops') /\
  Forall (fun t => match t with TFunction _ | TBinary _ => True | _ => False end) ps.
Proof.
  intros f. induction ops as [|t ops IH]; intros out.
  - exists [], []. simpl. rewrite app_nil_r. auto.
  - assert (Hstop : exists ps ops', t :: ops = ps ++ ops' /\ (out, t :: ops) = (out ++ ps, ops') /\
        Forall (fun t => match t with TFunction _ | TBinary _ => True | _ => False end) ps).
    { exists [], (t :: ops). rewrite app_nil_r. auto. }
    assert (Hgo : match t with TFunction _ | TBinary _ => True | _ => False end ->
        exists ps ops', t :: ops = ps ++ ops' /\ pop_operators c f (out ++ [t]) ops = (out ++ ps, ops') /\
        Forall (fun t => match t with TFunction _ | TBinary _ => True | _ => False end) ps).
    { intros Ht. destruct (IH (out ++ [t])) as (ps & ops' & E & Ep & F). exists (t :: ps), ops'.
      split; [simpl; congruence|]. split; [rewrite Ep, <- app_assoc; reflexivity|]. constructor; assumption. }
    destruct t; simpl; try exact Hstop.
    + apply Hgo. exact I.
    + destruct (get_binary c o) as [top|]; [|exact Hstop]. destruct (pop_condition top f); [|exact Hstop].
      apply Hgo. exact I.
Qed.

Lemma step_no_zero : forall toks pre t rest y y', toks = pre ++ t :: rest -> no_zero (length pre) y ->
  yard_step c dbg toks (length pre) t (hd_error rest) y = Ok y' ->
  no_zero (length (pre ++ [t])) (push_implicit c t (hd_error rest) y').
Proof.
  intros toks pre t rest y y' Et [Hg Hz] H.
  assert (Hgrp : Forall (fun p => 1 <= p) (y_grp y')).
  { destruct t; simpl in H.
    - injection H as <-. unfold push_number. destruct (y_ops y) as [|[] ?]; simpl; auto. destruct (is_some _); auto.
    - injection H as <-. unfold push_number. destruct (y_ops y) as [|[] ?]; simpl; auto. destruct (is_some _); auto.
    - injection H as <-. unfold push_number. destruct (y_ops y) as [|[] ?]; simpl; auto. destruct (is_some _); auto.
    - destruct (_ && _); [discriminate|]. injection H as <-. exact Hg.
    - unfold push_binary_function in H. destruct (get_binary c o); [|discriminate].
      destruct (pop_operators c b (y_out y) (y_ops y)). injection H as <-. exact Hg.
    - unfold push_unary_function in H. destruct (get_unary c u) as [uf|]; [|discriminate].
      destruct (uf_notation uf); [injection H as <-; exact Hg|]. destruct (y_out y); [discriminate|].
      injection H as <-. exact Hg.
    - discriminate.
    - injection H as <-. simpl. destruct (y_argc y) eqn:Ea; [exact Hg|]. constructor; [|exact Hg].
      destruct (length pre); [discriminate (Hz eq_refl)|lia].
    - unfold step_close in H. destruct (close_loop c c0 (y_out y) (y_ops y) (y_argc y)) as [[[out ops] argc]| |];
        try discriminate. simpl in H.
      assert (Hy : y' = Yard out ops argc (match argc with [] => y_grp y | _ => tl (y_grp y) end)).
      { destruct (1 <? length pre); [|congruence]. destruct (nth_error toks (length pre - 1)) as [[]|]; try congruence.
        destruct (match get_group_open_for (cfg c) c0 with Some v => char_eqb v c1 | None => false end); [|congruence].
        destruct (nth_error toks (length pre - 2)) as [t|]; try congruence. destruct (negb (is_function t)); congruence. }
      subst y'. simpl. destruct argc; [exact Hg|]. destruct (y_grp y); [exact Hg|]. inversion Hg; assumption.
    - discriminate.
    - destruct (check_comma_position dbg toks (y_grp y) (length pre)); try discriminate. simpl in H.
      unfold push_comma in H. destruct (y_argc y); [discriminate|].
      destruct (comma_loop (y_out y) (y_ops y)) as [[out ops]| |]; try discriminate. injection H as <-. exact Hg. }
  split.
  - unfold push_implicit. destruct (implicit_here c t (hd_error rest)); exact Hgrp.
  - intros E. rewrite app_length in E. simpl in E. lia.
Qed.

Lemma step_no_panic : forall toks pre t rest y, toks = pre ++ t :: rest -> no_zero (length pre) y ->
  yard_step c dbg toks (length pre) t (hd_error rest) y <> Panic.
Proof.
  intros toks pre t rest y Et [Hg _] H. destruct t; simpl in H; try discriminate.
  - destruct (_ && _); discriminate.
  - unfold push_binary_function in H. destruct (get_binary c o); [|discriminate].
    destruct (pop_operators c b (y_out y) (y_ops y)). discriminate.
  - unfold push_unary_function in H. destruct (get_unary c u) as [uf|]; [|discriminate].
    destruct (uf_notation uf); [discriminate|]. destruct (y_out y); discriminate.
  - unfold step_close in H.
    destruct (close_loop_cases c0 (y_ops y) (y_out y) (y_argc y)) as
      [[k E]|(ps & o' & ops' & g & _ & _ & _ & _ & [(n & argc' & f & ops'' & _ & _ & E)|[_ E]])]; rewrite E in H; simpl in H;
      try discriminate H.
    all: destruct (1 <? length pre) eqn:Hp; [|discriminate H]; apply Nat.ltb_lt in Hp.
    all: destruct (nth_error toks (length pre - 1)) as [[]|] eqn:En; try discriminate H;
      [|apply nth_error_None in En; rewrite Et, app_length in En; simpl in En; lia].
    all: destruct (match get_group_open_for (cfg c) c0 with Some v => char_eqb v c1 | None => false end);
      [|discriminate H].
    all: destruct (nth_error toks (length pre - 2)) as [t|] eqn:En2;
      [destruct (negb (is_function t)); discriminate H
      |apply nth_error_None in En2; rewrite Et, app_length in En2; simpl in En2; lia].
  - unfold check_comma_position in H. destruct (length pre =? 0); [discriminate H|].
    destruct (tok_at toks (length pre - 1) is_grouping_open); [discriminate H|].
    destruct (tok_at toks (length pre + 1) is_grouping_close); [discriminate H|].
    assert (Hpc : push_comma y <> Panic).
    { unfold push_comma. destruct (y_argc y); [discriminate|].
      destruct (comma_loop_cases (y_ops y) (y_out y)) as [[k E]|(ps & o & ops' & _ & _ & E)]; rewrite E; discriminate. }
    destruct (y_grp y) as [|[|l] grp]; simpl in H.
    + exact (Hpc H).
    + inversion Hg as [|? ? Hp _]; subst. lia.
    + destruct (tok_at toks l is_function); [exact (Hpc H)|discriminate H].
Qed.

Lemma loop_no_panic : forall toks rest pre y, toks = pre ++ rest -> no_zero (length pre) y ->
  yard_loop c dbg toks (length pre) rest y <> Panic.
Proof.
  intros toks. induction rest as [|t rest IH]; intros pre y Et Hi H; simpl in H; [discriminate|].
  destruct (yard_step c dbg toks (length pre) t (hd_error rest) y) as [y1| |] eqn:E; try discriminate H.
  - simpl in H. revert H. pose proof (step_no_zero toks pre t rest y y1 Et Hi E) as Hi'.
    rewrite app_length in Hi'. simpl in Hi'. rewrite Nat.add_1_r in Hi'.
    specialize (IH (pre ++ [t]) (push_implicit c t (hd_error rest) y1)).
    rewrite app_length in IH. simpl in IH. rewrite Nat.add_1_r in IH. apply IH; [|exact Hi'].
    rewrite Et, <- app_assoc. reflexivity.
  - revert E. apply step_no_panic; assumption.
Qed.

Theorem infix_no_panic : forall toks, infix_to_rpn c dbg toks <> Panic.
Proof.
  intros toks H. unfold infix_to_rpn in H.
  destruct (yard_loop c dbg toks 0 toks (Yard [] [] [] [])) as [y| |] eqn:E; simpl in H.
  - assert (Hf : forall ops out, @finish V out ops <> Panic).
    { induction ops as [|t ops IH]; intros out; simpl; [discriminate|]. destruct (is_grouping_close t); [discriminate|apply IH]. }
    exact (Hf _ _ H).
  - discriminate.
  - revert E. apply (loop_no_panic toks toks [] (Yard [] [] [] [])); [reflexivity|].
    split; [constructor|auto].
Qed.

(** ** The output: argument counts are followed by their function *)

(** [reg b l]: reading the postfix tokens [l] with ([b = true]) or without an argument count pending; [None] if a
    function comes without one. *)
Fixpoint reg (b : bool) (l : list tok) : option bool :=
  match l with
  | [] => Some b
  | TArgCount _ :: l' => reg true l'
  | TFunction _ :: l' => if b then reg false l' else None
  | _ :: l' => reg b l'
  end.

Lemma reg_app : forall l1 l2 b, reg b (l1 ++ l2) = match reg b l1 with Some b' => reg b' l2 | None => None end.
Proof.
  induction l1 as [|t l1 IH]; intros l2 b; [reflexivity|]. destruct t; simpl; try apply IH.
  destruct b; [apply IH|reflexivity].
Qed.

(** No argument count is pending at the end, or two would be pending at once. *)
Fixpoint paired (l : list tok) : Prop :=
  match l with
  | [] => True
  | TArgCount _ :: TFunction _ :: l' => paired l'
  | TArgCount _ :: _ => False
  | _ :: l' => paired l'
  end.

Lemma paired_app : forall l1 l2, paired l1 -> paired l2 -> paired (l1 ++ l2).
Proof.
  assert (H : forall n l1 l2, length l1 <= n -> paired l1 -> paired l2 -> paired (l1 ++ l2)).
  { induction n as [|n IH]; intros [|t l1] l2 Hn H1 H2; simpl in *; auto; try lia.
    destruct t; try (apply IH; auto; lia).
    destruct l1 as [|t' l1]; [contradiction|]. destruct t'; try contradiction. simpl in *. apply IH; auto. lia. }
  intros l1 l2. apply (H (length l1)). lia.
Qed.

Lemma paired_reg : forall l, paired l -> match reg false l with Some b => b = false | None => True end.
Proof.
  assert (H : forall n l, length l <= n -> paired l -> match reg false l with Some b => b = false | None => True end).
  { induction n as [|n IH]; intros [|t l] Hn Hp; simpl in *; auto; try lia.
    destruct t; try (apply IH; auto; lia).
    - exact I.
    - destruct l as [|t' l]; [contradiction|]. destruct t'; try contradiction. simpl in *. apply IH; auto. lia. }
  intros l. apply (H (length l)). lia.
Qed.

Definition plain_token (t : tok) : Prop := match t with TArgCount _ => False | _ => True end.

Lemma paired_plain : forall l, Forall plain_token l -> paired l.
Proof. intros l H. induction H as [|t l Ht Hl IH]; [exact I|]. destruct t; try exact IH. contradiction. Qed.

(** ** What one step does to the output and the operator stack

    [step_effect]: the tokens [ps] are moved from the stack to the output, with [ins] added. *)
Lemma push_implicit_ops : forall t nx y, y_out (push_implicit c t nx y) = y_out y /\
  y_argc (push_implicit c t nx y) = y_argc y /\ y_grp (push_implicit c t nx y) = y_grp y /\
  y_ops (push_implicit c t nx y) = (if implicit_here c t nx then [TBinary star] else []) ++ y_ops y.
Proof. intros. unfold push_implicit. destruct (implicit_here c t nx); auto. Qed.

Lemma step_close_inv : forall toks pos cl y y', step_close c toks pos cl y = Ok y' ->
  exists ps o ops' g, y_ops y = ps ++ TOpen o :: ops' /\ (forall s, ~ In (TOpen s) ps) /\
  grouping_new o = Some g /\ grouping_close g = cl /\
  ((exists n f, y_argc y = n :: y_argc y' /\ ops' = TFunction f :: y_ops y' /\
      y_out y' = y_out y ++ ps ++ [TArgCount (n + 1); TFunction f]) \/
   ((y_argc y = [] \/ match ops' with TFunction _ :: _ => False | _ => True end) /\ y_argc y' = y_argc y /\
      y_ops y' = ops' /\ y_out y' = y_out y ++ ps)) /\
  y_grp y' = match y_argc y' with [] => y_grp y | _ => tl (y_grp y) end.
Proof.
  intros toks pos cl y y' H. unfold step_close in H.
  destruct (close_loop c cl (y_out y) (y_ops y) (y_argc y)) as [[[out ops] argc]| |] eqn:E; try discriminate H.
  simpl in H.
  assert (Hy : y' = Yard out ops argc (match argc with [] => y_grp y | _ => tl (y_grp y) end)).
  { destruct (1 <? pos); [|congruence]. destruct (nth_error toks (pos - 1)) as [[]|]; try congruence.
    destruct (match get_group_open_for (cfg c) cl with Some v => char_eqb v c0 | None => false end); [|congruence].
    destruct (nth_error toks (pos - 2)) as [t|]; try congruence. destruct (negb (is_function t)); congruence. }
  subst y'. simpl.
  destruct (close_loop_cases cl (y_ops y) (y_out y) (y_argc y)) as
    [[k E']|(ps & o & ops' & g & Eo & Hps & Hg & Hcl & D)]; [rewrite E in E'; discriminate|].
  exists ps, o, ops', g. split; [exact Eo|]. split; [exact Hps|]. split; [exact Hg|]. split; [exact Hcl|].
  split; [|reflexivity]. destruct D as [(n & argc' & f & ops'' & Ea & Eops & E')|[Hn E']]; rewrite E in E'; injection E' as -> -> ->.
  - left. exists n, f. auto.
  - right. auto.
Qed.

Lemma push_comma_inv : forall y y', push_comma y = Ok y' ->
  exists ps o ops' n argc', y_ops y = ps ++ TOpen o :: ops' /\ (forall s, ~ In (TOpen s) ps) /\
  y_argc y = n :: argc' /\ y' = @Yard V (y_out y ++ ps) (TOpen o :: ops') (S n :: argc') (y_grp y).
Proof.
  intros y y' H. unfold push_comma in H. destruct (y_argc y) as [|n argc'] eqn:Ea; [discriminate|].
  destruct (comma_loop_cases (y_ops y) (y_out y)) as [[k E]|(ps & o & ops' & Eo & Hps & E)]; rewrite E in H;
    [discriminate|]. injection H as <-. exists ps, o, ops', n, argc'. auto.
Qed.

Lemma push_binary_inv : forall o y y', push_binary_function c o y = Ok y' ->
  get_binary c o <> None /\
  exists ps ops', y_ops y = ps ++ ops' /\ Forall (fun t => match t with TFunction _ | TBinary _ => True | _ => False end) ps
  /\ y' = @Yard V (y_out y ++ ps) (TBinary o :: ops') (y_argc y) (y_grp y).
Proof.
  intros o y y' H. unfold push_binary_function in H. destruct (get_binary c o) as [f|]; [|discriminate].
  split; [discriminate|].
  destruct (pop_operators_cases f (y_ops y) (y_out y)) as (ps & ops' & Eo & E & F). rewrite E in H.
  injection H as <-. exists ps, ops'. auto.
Qed.

Lemma push_number_inv : forall t y, 
  push_number c t y = @Yard V (y_out y ++ [t]) (y_ops y) (y_argc y) (y_grp y) \/
  exists u ops', y_ops y = TUnary u :: ops' /\ push_number c t y = Yard (y_out y ++ [t] ++ [TUnary u]) ops' (y_argc y) (y_grp y).
Proof.
  intros t y. unfold push_number. destruct (y_ops y) as [|[] ops]; auto.
  destruct (is_some (get_unary c u)); auto. right. exists u, ops. split; [reflexivity|]. rewrite <- app_assoc. reflexivity.
Qed.

Lemma push_unary_inv : forall u y y', push_unary_function c u y = Ok y' ->
  get_unary c u <> None /\
  (y' = @Yard V (y_out y) (TUnary u :: y_ops y) (y_argc y) (y_grp y) \/
   y' = Yard (y_out y ++ [TUnary u]) (y_ops y) (y_argc y) (y_grp y)).
Proof.
  intros u y y' H. unfold push_unary_function in H. destruct (get_unary c u) as [uf|]; [|discriminate].
  split; [discriminate|].
  destruct (uf_notation uf); [injection H as <-; auto|]. destruct (y_out y) as [|a l]; [discriminate|].
  injection H as <-. auto.
Qed.

End Tokens.
