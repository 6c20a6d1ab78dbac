(** * C81: brackets and variables *)
From Coq Require Import List NArith ZArith Bool Arith Lia String.
From Verif Require Import ModelBase ModelContext ModelEvaluator ModelText ModelDefault ModelTokenizer ModelParse ModelNum ModelStd
  SpecExpr SpecText SpecTokenizer SpecRewrite ProofRpn ProofWf PropLex PropContext.
Import ListNotations.

Section Denote.
Context {V W : Type}.
Variable c : ctx V W.
Lemma sequence_ext : forall (A : Type) (ms ms' : list (M W A)), Forall2 (fun m m' => forall w, m w = m' w) ms ms' -> forall w, sequence ms w = sequence ms' w.
Proof.
  intros A ms ms' F. induction F as [|m m' ms ms' H F IH]; intros w; [reflexivity|]. cbn [sequence]. unfold bind. rewrite H. destruct (m' w) as [[a|k|] w']; try reflexivity. rewrite IH. reflexivity.
Qed.
Lemma denote_ext : forall (c' : ctx V W) (f : expr V -> expr V),
  (forall y, get_function c' y = get_function c y) -> forall args, Forall (fun e => forall w, denote c' e w = denote c (f e) w) args -> forall w, sequence (map (denote c') args) w = sequence (map (denote c) (map f args)) w.
Proof.
  intros c' f _ args F. apply sequence_ext. induction F; cbn [map]; constructor; assumption.
Qed.
Lemma bare_denote : forall e w, denote c e w = denote c (bare e) w.
Proof.
  induction e using expr_ind'; intros w; cbn [bare denote]; try reflexivity; unfold bind; try (rewrite IHe; reflexivity).
  - rewrite (denote_ext c bare (fun _ => eq_refl) args H). reflexivity.
  - rewrite IHe1. destruct (denote c (bare e1) w) as [[a|k|] w']; try reflexivity. rewrite IHe2. reflexivity.
  - rewrite IHe1. destruct (denote c (bare e1) w) as [[a|k|] w']; try reflexivity. rewrite IHe2. reflexivity.
Qed.
Lemma bracketed_denote : forall e w, denote c e w = denote c (bracketed e) w.
Proof.
  induction e using expr_ind'; intros w; cbn [bracketed denote]; try reflexivity; unfold bind; try (rewrite IHe; reflexivity).
  - rewrite (denote_ext c bracketed (fun _ => eq_refl) args H). reflexivity.
  - rewrite IHe1. destruct (denote c (bracketed e1) w) as [[a|k|] w']; try reflexivity. rewrite IHe2. reflexivity.
  - rewrite IHe1. destruct (denote c (bracketed e1) w) as [[a|k|] w']; try reflexivity. rewrite IHe2. reflexivity.
Qed.
Lemma bracketed_wf : forall e, registered c e -> wf c (bracketed e).
Proof.
  induction e using expr_ind'; intros R; inversion R; subst; cbn [bracketed wf]; try exact I.
  - apply IHe; assumption.
  - match goal with N : args <> [], A : forall a, In a args -> registered c a |- _ => rename N into Hn; rename A into Ha end.
    split; [destruct args; [contradiction|discriminate]|]. split; [reflexivity|]. clear R Hn.
    induction H as [|a args Ia _ IHa]; cbn [map]; [exact I|]. split; [apply Ia; apply Ha; left; reflexivity|]. apply IHa. intros b Hb; apply Ha; right; exact Hb.
  - split; [apply IHe; assumption|]. split; [assumption|]. right. reflexivity.
  - split; [apply IHe; assumption|]. split; [assumption|reflexivity].
  - split; [apply IHe1; assumption|]. split; [apply IHe2; assumption|]. split; [assumption|]. split; [reflexivity|]. split; intros o' [].
  - split; [apply IHe1; assumption|]. split; [apply IHe2; assumption|]. split; [assumption|]. split; [reflexivity|]. split; intros o' [].
Qed.
Lemma replace_denote : forall c' x v e0, with_variable c x v c' -> (forall w, denote c e0 w = (Ok v, w)) -> forall e w, denote c' e w = denote c (replace x e0 e) w.
Proof.
  intros c' x v e0 (V1 & V2 & V3 & V4 & V5) H0. induction e using expr_ind'; intros w; cbn [replace denote]; try reflexivity; unfold bind; try (rewrite IHe; reflexivity).
  - rewrite V1. destruct (str_eqb x0 x); [rewrite H0; reflexivity|reflexivity].
  - rewrite V2. reflexivity.
  - rewrite (denote_ext c' (replace x e0) V3 args H). destruct (sequence _ w) as [[a|k|] w']; try reflexivity. unfold apply_function. rewrite V3. reflexivity.
  - rewrite IHe. unfold apply_unary. destruct (denote c (replace x e0 e) w) as [[a|k|] w']; try reflexivity. rewrite V4. reflexivity.
  - rewrite IHe. unfold apply_unary. destruct (denote c (replace x e0 e) w) as [[a|k|] w']; try reflexivity. rewrite V4. reflexivity.
  - rewrite IHe1. destruct (denote c (replace x e0 e1) w) as [[a|k|] w']; try reflexivity. rewrite IHe2. destruct (denote c (replace x e0 e2) w') as [[b|k|] w'']; try reflexivity. unfold apply_binary. rewrite V5. reflexivity.
  - rewrite IHe1. destruct (denote c (replace x e0 e1) w) as [[a|k|] w']; try reflexivity. rewrite IHe2. destruct (denote c (replace x e0 e2) w') as [[b|k|] w'']; try reflexivity. unfold apply_binary. rewrite V5. reflexivity.
Qed.
End Denote.

(** Two ways to write an expression that differ in brackets only, and that both have the tree as their reading, evaluate alike. *)
Theorem C81_brackets : forall V W (c : ctx V W) dbg e e' w, wf c e -> wf c e' -> same_but_brackets e e' ->
  eval_tokens c dbg (print e) w = eval_tokens c dbg (print e') w.
Proof. intros V W c dbg e e' w H H' S. rewrite !eval_tokens_print by assumption. rewrite (bare_denote c e), (bare_denote c e'). unfold same_but_brackets in S. rewrite S. reflexivity. Qed.
Print Assumptions C81_brackets.
Theorem C81_brackets_text : forall V W (c : ctx V W) parse dbg e e' s s' w, wf c e -> wf c e' -> same_but_brackets e e' ->
  text_of c parse e s -> text_of c parse e' s' -> eval c parse dsplitter dbg s w = eval c parse dsplitter dbg s' w.
Proof.
  intros V W c parse dbg e e' s s' w H H' S T T'. rewrite (C16_eval_text V W c parse dbg e s w H T), (C16_eval_text V W c parse dbg e' s' w H' T').
  rewrite (bare_denote c e), (bare_denote c e'). unfold same_but_brackets in S. rewrite S. reflexivity.
Qed.
Print Assumptions C81_brackets_text.

(** With brackets around every operand any tree can be evaluated, whatever the precedences. *)
Theorem C81_fully_bracketed : forall V W (c : ctx V W) dbg e w, registered c e -> eval_tokens c dbg (print (bracketed e)) w = denote c e w.
Proof. intros V W c dbg e w R. rewrite eval_tokens_print by (apply bracketed_wf; exact R). symmetry. apply bracketed_denote. Qed.
Print Assumptions C81_fully_bracketed.

(** A variable stands for its value: an expression with the variable, and the expression in which an expression of that value is
    written instead, evaluate alike, when both readings are the trees they are meant to be. *)
Theorem C81_variables : forall V W (c c' : ctx V W) dbg x v e0 e w, with_variable c x v c' -> (forall w, denote c e0 w = (Ok v, w)) ->
  wf c' e -> wf c (replace x e0 e) -> eval_tokens c' dbg (print e) w = eval_tokens c dbg (print (replace x e0 e)) w.
Proof. intros V W c c' dbg x v e0 e w Hc H0 H H'. rewrite !eval_tokens_print by assumption. apply (replace_denote c c' x v e0 Hc H0). Qed.
Print Assumptions C81_variables.
(** In particular for variables set with [set_variable]. *)
Theorem C81_set_variable : forall V W (E : env) dbg (d d' : dctx V W) x v r e0 e w, set_variable E dbg x v d = (Ok r, d') ->
  (forall w, eval_tokens (to_ctx E d) dbg (print e0) w = (Ok v, w)) -> wf (to_ctx E d) e0 -> wf (to_ctx E d') e -> wf (to_ctx E d) (replace x e0 e) ->
  eval_tokens (to_ctx E d') dbg (print e) w = eval_tokens (to_ctx E d) dbg (print (replace x e0 e)) w.
Proof.
  intros V W E dbg d d' x v r e0 e w Hs H0 W0 We Wr. apply (C81_variables V W (to_ctx E d) (to_ctx E d') dbg x v e0 e w); try assumption.
  - destruct (C20_set_variable_frame V W E dbg x v d (Ok r) d' Hs) as (_ & F2 & F3 & F4 & F5).
    destruct (C20_set_variable V W E dbg x v d (Ok r) d' Hs) as [(k & X & _)|(_ & F1)]; [discriminate|].
    split; [intros y; rewrite F1; destruct (str_eqb x y) eqn:Q1, (str_eqb y x) eqn:Q2; try reflexivity; [apply str_eqb_eq in Q1; subst; rewrite str_eqb_refl in Q2; discriminate|apply str_eqb_eq in Q2; subst; rewrite str_eqb_refl in Q1; discriminate]|].
    repeat split; intros y; cbn [to_ctx get_constant get_function get_unary get_binary]; [rewrite F2|rewrite F3|rewrite F4|rewrite F5]; reflexivity.
  - intros w'. rewrite <- (H0 w'). symmetry. apply eval_tokens_print. exact W0.
Qed.
Print Assumptions C81_set_variable.

(** Without the condition on the readings this fails, because a sign before a bracket takes all that follows (C02): with [x] = 3,
    [-x - 2] is -5 and [-(x) - 2] and [-(3) - 2] are -1. *)
Definition with_x : ctx Z unit := Ctx plain_config (fun y => if str_eqb y (lit "x") then Some 3%Z else None) (get_constant (std_ctx plain_config)) (get_function (std_ctx plain_config)) (get_unary (std_ctx plain_config)) (get_binary (std_ctx plain_config)).
Definition text_with_x (s : string) : res Z := fst (eval with_x (parse_int i64) dsplitter true (lit s) tt).
Theorem C81_brackets_refuted : text_with_x "-x - 2" = Ok (-5)%Z /\ text_with_x "-(x) - 2" = Ok (-1)%Z /\ text_with_x "-(3) - 2" = Ok (-1)%Z /\
  with_variable (std_ctx plain_config) (lit "x") 3%Z with_x.
Proof. split; [vm_compute; reflexivity|]. split; [vm_compute; reflexivity|]. split; [vm_compute; reflexivity|]. repeat split. Qed.
Print Assumptions C81_brackets_refuted.

(** [2 * x + 1] with [x] = [(5 - 2)]; [7 - 4 - 2] as a tree read from the right, [7 - (4 - 2)], with brackets. *)
Definition C81_tree : expr Z := EBin (lit "+") (EBin (lit "*") (ENum 2%Z) (EVar (lit "x"))) (ENum 1%Z).
Definition C81_value : expr Z := EGroup Parenthesis (EBin (lit "-") (ENum 5%Z) (ENum 2%Z)).
Definition C81_right : expr Z := EBin (lit "-") (ENum 7%Z) (EBin (lit "-") (ENum 4%Z) (ENum 2%Z)).
Example C81_case : wf with_x C81_tree /\ wf (std_ctx plain_config) (replace (lit "x") C81_value C81_tree) /\ denote (std_ctx plain_config) C81_value tt = (Ok 3%Z, tt) /\
  fst (eval_tokens with_x true (print C81_tree) tt) = Ok 7%Z /\ fst (eval_tokens (std_ctx plain_config) true (print (replace (lit "x") C81_value C81_tree)) tt) = Ok 7%Z /\
  registered (std_ctx plain_config) C81_right /\ wfb (std_ctx plain_config) C81_right = false /\ fst (eval_tokens (std_ctx plain_config) true (print (bracketed C81_right)) tt) = Ok 5%Z /\
  fst (eval_tokens (std_ctx plain_config) true (print C81_right) tt) = Ok 1%Z.
Proof.
  split; [apply wfb_sound; vm_compute; reflexivity|]. split; [apply wfb_sound; vm_compute; reflexivity|]. split; [vm_compute; reflexivity|]. split; [vm_compute; reflexivity|]. split; [vm_compute; reflexivity|].
  split; [|split; [vm_compute; reflexivity|split; vm_compute; reflexivity]].
  assert (M : get_binary (std_ctx plain_config) (lit "-") <> None) by (apply is_binary_sound; vm_compute; reflexivity). repeat (constructor; try exact M).
Qed.
