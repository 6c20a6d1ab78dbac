(** * Evaluation of the postfix form, and of whole expressions *)
From Coq Require Import List NArith Bool Arith Lia.
From Verif Require Import ModelBase ModelContext ModelEvaluator SpecExpr ProofYard.
Import ListNotations.

Section Rpn.
Context {V W : Type}.
Variable c : ctx V W.
Variable dbg : bool.
Notation tok := (token V).
Notation loop := (rpn_loop c dbg).

Lemma bind_assoc : forall {A B C} (m : M W A) (f : A -> M W B) (g : B -> M W C) w,
  bind (bind m f) g w = bind m (fun a => bind (f a) g) w.
Proof. intros. unfold bind. destruct (m w) as [[] ]; reflexivity. Qed.

Lemma bind_ext : forall {A B} (m : M W A) (f g : A -> M W B) w,
  (forall a w', m w = (Ok a, w') -> f a w' = g a w') -> bind m f w = bind m g w.
Proof. intros A B m f g w H. unfold bind. destruct (m w) as [[a| |] w'] eqn:E; auto. Qed.

Lemma sequence_length : forall (ms : list (M W V)) w vs w',
  sequence ms w = (Ok vs, w') -> length vs = length ms.
Proof.
  induction ms as [|m ms IH]; intros w vs w' H; simpl in H.
  - unfold ret in H. injection H as <- <-. reflexivity.
  - unfold bind in H. destruct (m w) as [[v| |] w1]; try discriminate.
    destruct (sequence ms w1) as [[vs1| |] w2] eqn:E; try discriminate.
    unfold ret in H. injection H as <- <-. simpl. f_equal. eapply IH. exact E.
Qed.

Lemma pop_args_exact : forall (xs vals args : list V),
  pop_args (length xs) (xs ++ vals) args = (vals, args ++ xs).
Proof.
  induction xs as [|x xs IH]; intros vals args; simpl.
  - rewrite app_nil_r. reflexivity.
  - rewrite IH, <- app_assoc. reflexivity.
Qed.

Lemma rpn_postfix : forall e rest vals w,
  loop (postfix e ++ rest) vals None w = bind (denote c e) (fun v => loop rest (v :: vals) None) w.
Proof.
  induction e as [v|x|x|g e IH|f g args IH|u e IH|e u IH|o l r IHl IHr|l r IHl IHr] using expr_ind';
    intros rest vals w.
  - reflexivity.
  - simpl. unfold value_of. destruct (get_variable c x); reflexivity.
  - simpl. unfold value_of. destruct (get_constant c x); reflexivity.
  - simpl. apply IH.
  - simpl postfix. simpl denote. rewrite <- app_assoc.
    assert (Hargs : forall rest vals w, loop (concat (map postfix args) ++ rest) vals None w =
       bind (sequence (map (denote c) args)) (fun vs => loop rest (rev vs ++ vals) None) w).
    { clear rest vals w. induction IH as [|a args Ha Hs IHs]; intros rest vals w; [reflexivity|].
      simpl. rewrite <- app_assoc, Ha. rewrite bind_assoc. apply bind_ext. intros v w' _.
      rewrite IHs. rewrite bind_assoc. apply bind_ext. intros vs w'' _. unfold bind, ret.
      simpl. rewrite <- app_assoc. reflexivity. }
    rewrite Hargs. rewrite bind_assoc. apply bind_ext. intros vs w' Hs.
    apply sequence_length in Hs. rewrite map_length in Hs.
    cbn [app rpn_loop]. rewrite andb_false_r. unfold apply_function.
    destruct (get_function c f) as [fn|]; [|reflexivity].
    rewrite <- Hs, <- rev_length, pop_args_exact. simpl. rewrite rev_involutive. reflexivity.
  - simpl. rewrite <- app_assoc, IH, bind_assoc. apply bind_ext. intros v w' _.
    simpl. unfold apply_unary. destruct (get_unary c u); reflexivity.
  - simpl. rewrite <- app_assoc, IH, bind_assoc. apply bind_ext. intros v w' _.
    simpl. unfold apply_unary. destruct (get_unary c u); reflexivity.
  - simpl. rewrite <- !app_assoc, IHl, bind_assoc. apply bind_ext. intros x w' _.
    rewrite IHr, bind_assoc. apply bind_ext. intros y w'' _.
    simpl. unfold apply_binary. destruct (get_binary c o); reflexivity.
  - simpl. rewrite <- !app_assoc, IHl, bind_assoc. apply bind_ext. intros x w' _.
    rewrite IHr, bind_assoc. apply bind_ext. intros y w'' _.
    simpl. unfold apply_binary. destruct (get_binary c times); reflexivity.
Qed.

(** The evaluator computes the meaning of every well-formed expression. *)
Theorem eval_tokens_print : forall e w, wf c e -> eval_tokens c dbg (print e) w = denote c e w.
Proof.
  intros e w Hwf. unfold eval_tokens. unfold bind at 1, lift. rewrite infix_to_rpn_print by exact Hwf.
  pose proof (rpn_postfix e [] [] w) as H. rewrite app_nil_r in H.
  unfold bind at 1. rewrite H. unfold bind. simpl. destruct (denote c e w) as [[v| |] w']; reflexivity.
Qed.

End Rpn.
