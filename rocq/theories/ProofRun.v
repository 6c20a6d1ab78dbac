(** * The step-by-step evaluation is the one [denote] computes *)
From Coq Require Import List NArith Bool.
From Verif Require Import ModelBase ModelContext SpecExpr SpecRun.
Import ListNotations.

Section Run.
Context {V W : Type}.
Variable c : ctx V W.

Lemma failure_cases : forall {A} (r : res A), (exists a, r = Ok a) \/ (exists k, r = failure k).
Proof.
  intros A [a|k|]; [left; eauto| |]; right; [exists (Some k)|exists None]; reflexivity.
Qed.

Lemma bind_failure : forall {A B} (m : M W A) (f : A -> M W B) k w w1,
  m w = (failure k, w1) -> bind m f w = (failure k, w1).
Proof. intros A B m f k w w1 H. unfold bind. rewrite H. destruct k; reflexivity. Qed.

Lemma bind_success : forall {A B} (m : M W A) (f : A -> M W B) a w w1, m w = (Ok a, w1) -> bind m f w = f a w1.
Proof. intros A B m f a w w1 H. unfold bind. rewrite H. reflexivity. Qed.

Let P (e : expr V) w r w' := denote c e w = (r, w').
Let Q o (l r : expr V) w res w' :=
  bind (denote c l) (fun x => bind (denote c r) (fun y => apply_binary c o x y)) w = (res, w').
Let R (es : list (expr V)) w r w' := sequence (map (denote c) es) w = (r, w').

Lemma runs_denote : forall e w r w', runs c e w r w' -> denote c e w = (r, w').
Proof.
  assert (Hs : forall (u : str) e w v w1 fn r w2, denote c e w = (Ok v, w1) -> get_unary c u = Some fn ->
     uf_call fn v w1 = (r, w2) -> bind (denote c e) (apply_unary c u) w = (r, w2)).
  { intros. erewrite bind_success by eassumption. unfold apply_unary. rewrite H0. assumption. }
  assert (Hn : forall (u : str) e w v w1, denote c e w = (Ok v, w1) -> get_unary c u = None ->
     bind (denote c e) (apply_unary c u) w = (Err InvalidInput, w1)).
  { intros. erewrite bind_success by eassumption. unfold apply_unary. rewrite H0. reflexivity. }
  apply (runs_mut c P Q R); unfold P, Q, R;
    intros; cbn [denote map sequence] in *; auto;
    try (eapply Hs; eassumption); try (eapply Hn; eassumption); try (apply bind_failure; assumption);
    repeat match goal with
    | H : get_variable c _ = _ |- _ => unfold value_of; rewrite H; reflexivity
    | H : get_constant c _ = _ |- _ => unfold value_of; rewrite H; reflexivity
    | H : denote c _ ?w = (Ok _, _) |- bind _ _ ?w = _ => erewrite bind_success by exact H; cbv beta
    | H : sequence _ ?w = (Ok _, _) |- bind _ _ ?w = _ => erewrite bind_success by exact H; cbv beta
    end; try (apply bind_failure; assumption);
    unfold apply_function, apply_binary;
    repeat match goal with H : get_function c _ = _ |- _ => rewrite H | H : get_binary c _ = _ |- _ => rewrite H end;
    auto.
Qed.

Lemma denote_runs : forall e w, runs c e w (fst (denote c e w)) (snd (denote c e w)).
Proof.
  assert (Hop : forall o l r, (forall w, runs c l w (fst (denote c l w)) (snd (denote c l w))) ->
     (forall w, runs c r w (fst (denote c r w)) (snd (denote c r w))) ->
     forall w, let d := bind (denote c l) (fun x => bind (denote c r) (fun y => apply_binary c o x y)) w in
       runs_op c o l r w (fst d) (snd d)).
  { intros o l r Hl Hr w d. subst d. specialize (Hl w). destruct (denote c l w) as [rl w1] eqn:El. simpl in Hl.
    destruct (failure_cases rl) as [[x ->]|[k ->]].
    - erewrite bind_success by exact El. specialize (Hr w1). destruct (denote c r w1) as [rr w2] eqn:Er. simpl in Hr.
      destruct (failure_cases rr) as [[y ->]|[k ->]].
      + erewrite bind_success by exact Er. unfold apply_binary. destruct (get_binary c o) as [fn|] eqn:Eo.
        * destruct (bf_call fn x y w2) as [rc w3] eqn:Ec. eapply RO_call; eassumption.
        * eapply RO_none; eassumption.
      + erewrite bind_failure by exact Er. eapply RO_right; eassumption.
    - erewrite bind_failure by exact El. apply RO_left. exact Hl. }
  assert (Hu : forall (u : str) e, (forall w, runs c e w (fst (denote c e w)) (snd (denote c e w))) ->
     forall w, runs c (EPre u e) w (fst (bind (denote c e) (apply_unary c u) w)) (snd (bind (denote c e) (apply_unary c u) w))
      /\ runs c (EPost e u) w (fst (bind (denote c e) (apply_unary c u) w)) (snd (bind (denote c e) (apply_unary c u) w))).
  { intros u e He w. specialize (He w). destruct (denote c e w) as [r w1] eqn:Er. simpl in He.
    destruct (failure_cases r) as [[x ->]|[k ->]].
    - erewrite bind_success by exact Er. unfold apply_unary. destruct (get_unary c u) as [fn|] eqn:Eo.
      + destruct (uf_call fn x w1) as [rc w3] eqn:Ec. split; [eapply R_pre|eapply R_post]; eassumption.
      + split; [eapply R_pre_none|eapply R_post_none]; eassumption.
    - erewrite bind_failure by exact Er. split; [apply R_pre_fail|apply R_post_fail]; exact He. }
  induction e as [v|x|x|g e IH|f g args IH|u e IH|e u IH|o l r IHl IHr|l r IHl IHr] using expr_ind'; intros w.
  - apply R_num.
  - simpl. unfold value_of. destruct (get_variable c x) eqn:E; [apply R_var|apply R_var_none]; exact E.
  - simpl. unfold value_of. destruct (get_constant c x) eqn:E; [apply R_const|apply R_const_none]; exact E.
  - apply R_group. apply IH.
  - assert (Ha : forall w, runs_all c args w (fst (sequence (map (denote c) args) w)) (snd (sequence (map (denote c) args) w))).
    { clear w. induction IH as [|e es He Hes IHes]; intros w; [apply RA_nil|]. cbn [map sequence].
      specialize (He w). destruct (denote c e w) as [r w1] eqn:Er. simpl in He.
      destruct (failure_cases r) as [[x ->]|[k ->]].
      - erewrite bind_success by exact Er. cbv beta. specialize (IHes w1).
        destruct (sequence (map (denote c) es) w1) as [rs w2] eqn:Es. simpl in IHes.
        destruct (failure_cases rs) as [[xs ->]|[k ->]].
        + erewrite bind_success by exact Es. eapply RA_cons; eassumption.
        + erewrite bind_failure by exact Es. eapply RA_tail; eassumption.
      - erewrite bind_failure by exact Er. apply RA_head. exact He. }
    cbn [denote]. specialize (Ha w). destruct (sequence (map (denote c) args) w) as [rs w1] eqn:Es. simpl in Ha.
    destruct (failure_cases rs) as [[xs ->]|[k ->]].
    + erewrite bind_success by exact Es. unfold apply_function. destruct (get_function c f) as [fn|] eqn:Ef.
      * destruct (fn_call fn xs w1) as [rc w3] eqn:Ec. eapply R_call; eassumption.
      * eapply R_call_none; eassumption.
    + erewrite bind_failure by exact Es. apply R_call_fail. exact Ha.
  - apply Hu. exact IH.
  - apply Hu. exact IH.
  - apply R_bin. apply Hop; assumption.
  - apply R_mul. apply Hop; assumption.
Qed.

Theorem runs_iff_denote : forall e w r w', runs c e w r w' <-> denote c e w = (r, w').
Proof.
  intros e w r w'. split; [apply runs_denote|]. intros E. pose proof (denote_runs e w) as H. rewrite E in H. exact H.
Qed.

End Run.
