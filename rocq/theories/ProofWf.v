(** * Deciding [wf], for examples *)
From Coq Require Import List NArith Bool.
From Verif Require Import ModelBase ModelContext SpecExpr SpecChain.
Import ListNotations.

Section Wf.
Context {V W : Type}.
Variable c : ctx V W.

Definition groups_leftb (o1 o2 : str) : bool :=
  match get_binary c o1, get_binary c o2 with
  | Some f1, Some f2 =>
      (bf_prec f2 <? bf_prec f1)%N
      || ((bf_prec f1 =? bf_prec f2)%N && match bf_assoc f1 with LeftA => true | RightA => false end)
  | _, _ => false
  end.
Lemma groups_leftb_spec : forall o1 o2, groups_leftb o1 o2 = true <-> groups_left c o1 o2.
Proof.
  intros o1 o2. unfold groups_leftb, groups_left. split.
  - destruct (get_binary c o1) as [f1|]; [|discriminate]. destruct (get_binary c o2) as [f2|]; [|discriminate].
    intros H. exists f1, f2. split; [reflexivity|]. split; [reflexivity|]. apply orb_true_iff in H. destruct H as [H|H].
    + left. apply N.ltb_lt. exact H.
    + right. apply andb_true_iff in H. destruct H as [H1 H2]. split; [apply N.eqb_eq; exact H1|].
      destruct (bf_assoc f1); [reflexivity|discriminate].
  - intros (f1 & f2 & -> & -> & [H|[H1 H2]]); apply orb_true_iff.
    + left. apply N.ltb_lt. exact H.
    + right. rewrite H1, H2, N.eqb_refl. reflexivity.
Qed.

Definition has_notationb (u : str) (n : notation) : bool :=
  match get_unary c u with
  | Some f => match uf_notation f, n with Prefix, Prefix | Postfix, Postfix => true | _, _ => false end
  | None => false
  end.
Lemma has_notationb_sound : forall u n, has_notationb u n = true -> has_notation c u n.
Proof.
  intros u n H. unfold has_notationb in H. unfold has_notation. destruct (get_unary c u) as [f|]; [|discriminate].
  exists f. split; [reflexivity|]. destruct (uf_notation f), n; congruence.
Qed.

Fixpoint wfb (e : expr V) : bool :=
  match e with
  | ENum _ | EVar _ | EConst _ => true
  | EGroup _ e => wfb e
  | ECall _ g args =>
      match args with [] => false | _ => true end
      && (custom_function_call (cfg c) || match g with Parenthesis => true | _ => false end)
      && (fix all es := match es with [] => true | e :: es' => wfb e && all es' end) args
  | EPre u e => wfb e && has_notationb u Prefix && (is_atom e || negb (starts_with_atom e))
  | EPost e u => wfb e && has_notationb u Postfix && is_primary e
  | EBin o l r =>
      wfb l && wfb r && is_some (get_binary c o) && negb (ends_in_prefix l)
      && forallb (fun o' => groups_leftb o' o) (right_ops l)
      && forallb (fun o' => negb (groups_leftb o o')) (left_ops r)
  | EMul l r =>
      wfb l && wfb r && implicit_mul (cfg c) && juxtaposed l r
      && forallb (fun o' => negb (groups_leftb times o')) (left_ops r)
  end.

Lemma forallb_in : forall {A} (p : A -> bool) l x, forallb p l = true -> In x l -> p x = true.
Proof. intros A p l x H Hin. rewrite forallb_forall in H. auto. Qed.

Lemma wfb_sound : forall e, wfb e = true -> wf c e.
Proof.
  induction e as [v|x|x|g e IH|f g args IH|u e IH|e u IH|o l r IHl IHr|l r IHl IHr] using expr_ind'; simpl; intros H; auto;
    repeat match goal with H : _ && _ = true |- _ => apply andb_true_iff in H; destruct H end.
  - split; [destruct args; [discriminate|discriminate]|]. split.
    + intros Hc. match goal with h : custom_function_call _ || _ = true |- _ => rewrite Hc in h; destruct g; [reflexivity|discriminate h|discriminate h] end.
    + match goal with h : _ args = true |- _ => revert h end. clear -IH. induction IH as [|e es He Hes IHes]; [exact (fun _ => I)|].
      intros H. apply andb_true_iff in H. destruct H as [H1 H2]. split; [apply He; exact H1|apply IHes; exact H2].
  - split; [auto|]. split; [apply has_notationb_sound; assumption|].
    match goal with h : _ || _ = true |- _ => apply orb_true_iff in h; destruct h as [h|h] end; [left; assumption|].
    right. apply negb_true_iff. assumption.
  - split; [auto|]. split; [apply has_notationb_sound; assumption|]. assumption.
  - split; [auto|]. split; [auto|]. split; [|split; [|split]].
    + destruct (get_binary c o); discriminate.
    + apply negb_true_iff. assumption.
    + intros o' Hin. apply groups_leftb_spec. eapply forallb_in in Hin; [|eassumption]. exact Hin.
    + intros o' Hin Hg. apply groups_leftb_spec in Hg. eapply forallb_in in Hin; [|eassumption]. cbv beta in Hin.
      rewrite Hg in Hin. discriminate.
  - split; [auto|]. split; [auto|]. split; [assumption|]. split; [assumption|].
    intros o' Hin Hg. apply groups_leftb_spec in Hg. eapply forallb_in in Hin; [|eassumption]. cbv beta in Hin.
    rewrite Hg in Hin. discriminate.
Qed.


Lemma is_binary_sound : forall o, is_binary_function c o = true -> get_binary c o <> None.
Proof. intros o H E. unfold is_binary_function in H. rewrite E in H. discriminate. Qed.

(** Deciding [op_like] (SpecChain). *)
Definition op_likeb (p : N) (a : associativity) (o : str) : bool :=
  match get_binary c o with
  | Some f => (bf_prec f =? p)%N && match bf_assoc f, a with LeftA, LeftA | RightA, RightA => true | _, _ => false end
  | None => false
  end.
Lemma op_likeb_sound : forall p a o, op_likeb p a o = true -> op_like c p a o.
Proof.
  intros p a o H. unfold op_likeb in H. destruct (get_binary c o) as [f|] eqn:E; [|discriminate].
  apply andb_true_iff in H. destruct H as [H1 H2]. apply N.eqb_eq in H1. exists f. split; [exact E|]. split; [exact H1|].
  destruct (bf_assoc f), a; congruence.
Qed.
Definition chain_ok (p : N) (a : associativity) (rest : list (str * expr V)) : bool :=
  forallb (fun '(o, e) => op_likeb p a o && wfb e && is_primary e) rest.
Lemma chain_ok_sound : forall p a rest, chain_ok p a rest = true ->
  Forall (fun '(o, e) => op_like c p a o /\ wf c e /\ is_primary e = true) rest.
Proof.
  intros p a rest H. apply Forall_forall. intros [o e] Hin. unfold chain_ok in H. rewrite forallb_forall in H.
  specialize (H _ Hin). cbv beta iota in H. apply andb_true_iff in H. destruct H as [H H3].
  apply andb_true_iff in H. destruct H as [H1 H2]. split; [apply op_likeb_sound; exact H1|]. split; [apply wfb_sound; exact H2|exact H3].
Qed.
End Wf.
