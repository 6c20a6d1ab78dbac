(** * Every sentence of the grammar is the text of exactly one well-formed tree *)
From Coq Require Import List NArith Bool Arith Lia.
From Verif Require Import ModelBase ModelContext ModelEvaluator SpecExpr SpecGrammar ProofYard.
Import ListNotations.

Section Grammar.
Context {V W : Type}.
Variable c : ctx V W.
Notation tok := (token V).

Definition pops (o1 o2 : str) : bool :=
  match get_binary c o1, get_binary c o2 with
  | Some f1, Some f2 => pop_condition f1 f2
  | _, _ => false
  end.

Lemma pops_spec : forall o1 o2, pops o1 o2 = true <-> groups_left c o1 o2.
Proof.
  intros o1 o2. unfold pops. split.
  - destruct (get_binary c o1) as [f1|] eqn:E1; [|discriminate].
    destruct (get_binary c o2) as [f2|] eqn:E2; [|discriminate].
    intros H. exists f1, f2. repeat split; auto.
    unfold pop_condition in H. apply orb_true_iff in H. destruct H as [H|H].
    + left. apply N.ltb_lt, H.
    + right. apply andb_true_iff in H. destruct H as [H1 H2]. apply N.eqb_eq in H1.
      destruct (bf_assoc f1); [auto|discriminate].
  - intros H. assert (H' := H). destruct H' as (f1 & f2 & E1 & E2 & _). rewrite E1, E2.
    destruct (groups_left_pop c o1 o2 f2 E2 H) as (f1' & E1' & Hp).
    rewrite E1 in E1'. injection E1' as <-. exact Hp.
Qed.

Lemma pops_false : forall o1 o2, pops o1 o2 = false <-> ~ groups_left c o1 o2.
Proof.
  intros o1 o2. rewrite <- pops_spec. destruct (pops o1 o2); split; congruence.
Qed.

Lemma groups_left_trans : forall a b d, groups_left c a b -> groups_left c b d -> groups_left c a d.
Proof.
  intros a b d (fa & fb & Ea & Eb & Hab) (fb' & fd & Eb' & Ed & Hbd).
  rewrite Eb in Eb'. injection Eb' as <-. exists fa, fd. split; [exact Ea|]. split; [exact Ed|].
  destruct Hab as [Hab|[Hab HA]]; destruct Hbd as [Hbd|[Hbd HB]].
  - left. lia. - left. lia. - left. lia. - right. split; [congruence|exact HA].
Qed.

Lemma not_groups_left_down : forall q o2 o', groups_left c o2 o' -> ~ groups_left c q o' -> ~ groups_left c q o2.
Proof. intros q o2 o' H1 H2 H3. apply H2. eapply groups_left_trans; eassumption. Qed.

Lemma left_ops_below : forall l o r q, wf c (EBin o l r) -> ~ groups_left c q o ->
  forall o', In o' (left_ops (EBin o l r)) -> ~ groups_left c q o'.
Proof.
  induction l as [v|x|x|g e IH|f g args IH|u e IH|e u IH|o2 l2 r2 IHl IHr|l2 r2 IHl IHr] using expr_ind';
    intros o r q Hwf Hq o' Hin; simpl in Hin;
    try (destruct Hin as [<-|[]]; exact Hq).
  rewrite in_app_iff in Hin. destruct Hin as [Hin|[<-|[]]]; [|exact Hq].
  destruct Hwf as (Hwl & _ & _ & _ & Hl & _).
  refine (IHl o2 r2 q Hwl _ o' Hin).
  apply (not_groups_left_down q o2 o); [|exact Hq].
  apply Hl. simpl. apply in_app_iff. right. left. reflexivity.
Qed.

(** ** Putting a primary and a junction in front of a tree *)

Definition mk (j : option str) (p e : expr V) : expr V :=
  match j with Some o => EBin o p e | None => EMul p e end.
Definition jop (j : option str) : str := match j with Some o => o | None => times end.
Definition jtok (j : option str) : list tok := match j with Some o => [TBinary o] | None => [] end.

Fixpoint ins (j : option str) (p e : expr V) : expr V :=
  match e with
  | EBin o' l r => if pops (jop j) o' then EBin o' (ins j p l) r else mk j p e
  | _ => mk j p e
  end.

Lemma print_mk : forall j p e, print (mk j p e) = print p ++ jtok j ++ print e.
Proof. intros [o|] p e; reflexivity. Qed.

Lemma ins_cases : forall j p e,
  (ins j p e = mk j p e /\ (forall o l r, e = EBin o l r -> pops (jop j) o = false))
  \/ (exists o l r, e = EBin o l r /\ pops (jop j) o = true /\ ins j p e = EBin o (ins j p l) r).
Proof.
  intros j p e. destruct e; try (left; split; [reflexivity|intros; congruence]).
  simpl. destruct (pops (jop j) o) eqn:E.
  - right. exists o, e1, e2. auto.
  - left. split; [reflexivity|]. intros o0 l r H. injection H as <- <- <-. exact E.
Qed.

Lemma print_ins : forall j p e, print (ins j p e) = print p ++ jtok j ++ print e.
Proof.
  intros j p. induction e as [v|x|x|g e IH|f g args IH|u e IH|e u IH|o l r IHl IHr|l r IHl IHr] using expr_ind';
    try apply print_mk.
  cbn [ins]. destruct (pops (jop j) o); [|apply print_mk].
  cbn [print]. rewrite IHl. rewrite <- !app_assoc. reflexivity.
Qed.

Lemma right_ops_mk : forall j p e, right_ops (mk j p e) = right_ops e ++ [jop j].
Proof. intros [o|] p e; reflexivity. Qed.

Lemma right_ops_ins : forall j p e o, In o (right_ops (ins j p e)) -> In o (right_ops e) \/ o = jop j.
Proof.
  intros j p e o H. destruct (ins_cases j p e) as [[E _]|(o' & l & r & -> & _ & E)]; rewrite E in H.
  - rewrite right_ops_mk in H. apply in_app_iff in H. destruct H as [H|[H|[]]]; auto.
  - left. exact H.
Qed.

Lemma right_ops_ins_sub : forall j p e o, In o (right_ops e) -> In o (right_ops (ins j p e)).
Proof.
  intros j p e o H. destruct (ins_cases j p e) as [[E _]|(o' & l & r & -> & _ & E)]; rewrite E.
  - rewrite right_ops_mk. apply in_app_iff. auto.
  - exact H.
Qed.

Lemma ends_mk : forall j p e, ends_in_prefix (mk j p e) = ends_in_prefix e.
Proof. intros [o|] p e; reflexivity. Qed.

Lemma ends_ins : forall j p e, ends_in_prefix (ins j p e) = ends_in_prefix e.
Proof.
  intros j p e. destruct (ins_cases j p e) as [[E _]|(o' & l & r & -> & _ & E)]; rewrite E.
  - apply ends_mk. - reflexivity.
Qed.

(** A primary [p] followed by the junction [j] and the tokens of [e]. *)
Definition junction (j : option str) (p e : expr V) : Prop :=
  match j with
  | Some o => get_binary c o <> None
  | None => implicit_mul (cfg c) = true /\ juxtaposed p e = true
  end.

Lemma primary_right : forall p : expr V, is_primary p = true -> right_ops p = [] /\ ends_in_prefix p = false.
Proof.
  intros p H. destruct p; try discriminate; split; try reflexivity. simpl in *. rewrite H. reflexivity.
Qed.

Lemma juxtaposed_head : forall (p e e' : expr V), hd_error (print e) = hd_error (print e') ->
  juxtaposed p e = juxtaposed p e'.
Proof.
  intros p e e' H. unfold juxtaposed. destruct (print e) as [|t q]; destruct (print e') as [|t' q'];
    simpl in H; try discriminate; [reflexivity|]. injection H as ->. reflexivity.
Qed.

Lemma wf_mk : forall j p e, wf c p -> is_primary p = true -> wf c e -> junction j p e ->
  (forall o, In o (left_ops e) -> ~ groups_left c (jop j) o) -> wf c (mk j p e).
Proof.
  intros j p e Hp Hprim He Hj Hl. destruct (primary_right p Hprim) as [Hr He']. destruct j as [o|]; simpl in *.
  - repeat split; auto. rewrite Hr. intros o' [].
  - destruct Hj as [Hi Hjx]. repeat split; auto.
Qed.

Lemma wf_ins : forall j p e, wf c p -> is_primary p = true -> wf c e -> junction j p e -> wf c (ins j p e).
Proof.
  intros j p e Hp Hprim. revert e.
  induction e as [v|x|x|g e IH|f g args IH|u e IH|e u IH|o l r IHl IHr|l r IHl IHr] using expr_ind';
    intros He Hj; try (apply wf_mk; auto; intros o' []).
  cbn [ins]. destruct (pops (jop j) o) eqn:E.
  - assert (He' := He). destruct He as (Hl & Hr & Ho & Hends & Hleft & Hright). cbn [wf].
    assert (Hjl : junction j p l).
    { destruct j as [oj|]; simpl in *; [exact Hj|]. destruct Hj as [Hi Hjx]. split; [exact Hi|].
      rewrite <- Hjx. apply juxtaposed_head. cbn [print].
      destruct (first_not_close_comma c l Hl) as (t & q & El & _). rewrite El. reflexivity. }
    split; [apply IHl; auto|]. split; [exact Hr|]. split; [exact Ho|].
    split; [rewrite ends_ins; exact Hends|]. split; [|exact Hright].
    intros o' Hin. apply right_ops_ins in Hin. destruct Hin as [Hin|Hin].
    + apply Hleft, Hin.
    + subst o'. apply pops_spec, E.
  - apply wf_mk; auto. intros o' Hin. eapply left_ops_below; [exact He| |exact Hin]. apply pops_false, E.
Qed.

(** ** Coverage *)

Lemma primary_last : forall p q a, wf c p -> is_primary p = true -> print p = q ++ [a] ->
  match a with
  | TNumber _ => match p with ENum _ | EPre _ (ENum _) => True | _ => False end
  | TClose _ => match p with EGroup _ _ | ECall _ _ _ => True | _ => False end
  | _ => True
  end.
Proof.
  intros p q a Hw Hp E.
  assert (Hl : last (print p) TComma = a) by (rewrite E; apply last_tok_close).
  destruct p as [v|x|x|g e|f g args|u e|e u|o l r|l r]; try discriminate Hp.
  - simpl in Hl. subst a. exact I.
  - simpl in Hl. subst a. exact I.
  - simpl in Hl. subst a. exact I.
  - cbn [print app] in Hl. rewrite app_comm_cons, last_tok_close in Hl. subst a. exact I.
  - cbn [print app] in Hl. rewrite !app_comm_cons, last_tok_close in Hl. subst a. exact I.
  - simpl in Hp. destruct e; try discriminate Hp; simpl in Hl; subst a; exact I.
  - cbn [print] in Hl. rewrite last_tok_close in Hl. subst a. exact I.
Qed.

Lemma multiplies_juxtaposed : forall p e q a b r, wf c p -> is_primary p = true -> print p = q ++ [a] ->
  print e = b :: r -> multiplies a b = true -> juxtaposed p e = true.
Proof.
  intros p e q a b r Hw Hp E1 E2 Hm. pose proof (primary_last p q a Hw Hp E1) as Hl.
  unfold juxtaposed. rewrite E2.
  destruct a; try discriminate Hm.
  - destruct p; try contradiction; [destruct b; try discriminate Hm; reflexivity|].
    destruct p; try contradiction. destruct b; try discriminate Hm; reflexivity.
  - destruct p; try contradiction; destruct b; try discriminate Hm; reflexivity.
Qed.

Definition covered_expr (q : list tok) := exists e, wf c e /\ print e = q.
Definition covered_primary (q : list tok) := exists e, wf c e /\ is_primary e = true /\ print e = q.
Definition covered_args (q : list tok) :=
  exists args, args <> [] /\ Forall (wf c) args /\ join [TComma] (map print args) = q.

Lemma atom_expr : forall t : tok, atom_token t = true -> exists e, is_atom e = true /\ wf c e /\ print e = [t].
Proof.
  intros t H. destruct t; try discriminate.
  - exists (ENum v). repeat split. - exists (EVar x). repeat split. - exists (EConst x). repeat split.
Qed.

Lemma coverage : forall q, g_expr c q -> covered_expr q.
Proof.
  apply (g_expr_mut c covered_expr covered_primary covered_args).
  - intros p _ (e & Hw & _ & E). exists e. auto.
  - intros p o q _ (ep & Hwp & Hpp & Ep) Ho _ (eq & Hwq & Eq). exists (ins (Some o) ep eq). split.
    + apply wf_ins; auto.
    + rewrite print_ins, Ep, Eq. reflexivity.
  - intros p a b q Hi _ (ep & Hwp & Hpp & Ep) _ (eq & Hwq & Eq) Hm. exists (ins None ep eq). split.
    + apply wf_ins; auto. split; [exact Hi|]. eapply multiplies_juxtaposed; eassumption.
    + rewrite print_ins, Ep, Eq. reflexivity.
  - intros u q Hu _ (e & Hw & E) Hs. exists (EPre u e). split.
    + simpl. split; [exact Hw|]. split; [exact Hu|]. right. unfold starts_with_atom.
      rewrite E. exact Hs.
    + simpl. rewrite E. reflexivity.
  - intros t Ht. destruct (atom_expr t Ht) as (e & Ha & Hw & E). exists e. repeat split; auto.
    destruct e; try discriminate; reflexivity.
  - intros u t Hu Ht. destruct (atom_expr t Ht) as (e & Ha & Hw & E). exists (EPre u e). repeat split; auto.
    cbn [print app]. rewrite E. reflexivity.
  - intros g q _ (e & Hw & E). exists (EGroup g e). repeat split; auto. cbn [print app]. rewrite E. reflexivity.
  - intros f g q Hg _ (args & Hne & Hw & E). exists (ECall f g args). repeat split; auto.
    + apply wf_args_Forall. exact Hw.
    + cbn [print app]. rewrite E. reflexivity.
  - intros p u _ (e & Hw & Hp & E) Hu. exists (EPost e u). repeat split; auto. cbn [print]. rewrite E. reflexivity.
  - intros q _ (e & Hw & E). exists [e]. split; [discriminate|]. split; [auto|]. exact E.
  - intros q qs _ (e & Hw & E) _ (args & Hne & Hws & Es). exists (e :: args). split; [discriminate|].
    split; [auto|]. rewrite <- E, <- Es. destruct args; [contradiction|]. reflexivity.
Qed.

(** ** Every tree is a primary, a prefix operator, or an insertion *)

Lemma juxtaposed_primary : forall l r : expr V, juxtaposed l r = true -> is_primary l = true.
Proof.
  intros l r H. unfold juxtaposed in H. destruct l; try discriminate H; try reflexivity.
  destruct l; try discriminate H; reflexivity.
Qed.

Lemma decompose : forall e, wf c e ->
  is_primary e = true
  \/ (exists u e', e = EPre u e' /\ is_atom e' = false)
  \/ (exists j p e', e = ins j p e' /\ wf c p /\ is_primary p = true /\ wf c e' /\ junction j p e').
Proof.
  induction e as [v|x|x|g e IH|f g args IH|u e IH|e u IH|o l r IHl IHr|l r IHl IHr] using expr_ind';
    intros Hwf; try (left; reflexivity).
  - simpl. destruct (is_atom e) eqn:E; [left; reflexivity|]. right. left. exists u, e. auto.
  - right. right. assert (Hwf' := Hwf). destruct Hwf as (Hl & Hr & Ho & Hends & Hleft & Hright).
    destruct (IHl Hl) as [Hp|[(u & e' & -> & Ha)|(j & p & l' & -> & Hwp & Hpp & Hwl' & Hj)]].
    + exists (Some o), l, r. split; [|repeat split; auto].
      destruct (ins_cases (Some o) l r) as [[E _]|(o' & l1 & r1 & -> & Hpop & _)]; [rewrite E; reflexivity|].
      exfalso. apply pops_spec in Hpop. revert Hpop. apply Hright. simpl. apply in_app_iff. right. left. reflexivity.
    + simpl in Hends. rewrite Ha in Hends. discriminate.
    + exists j, p, (EBin o l' r). 
      assert (Hpop : pops (jop j) o = true).
      { apply pops_spec. destruct (ins_cases j p l') as [[E _]|(o2 & l2 & r2 & -> & Hpop & E)].
        - apply Hleft. rewrite E, right_ops_mk. apply in_app_iff. right. left. reflexivity.
        - eapply groups_left_trans; [apply pops_spec, Hpop|]. apply Hleft. rewrite E. simpl.
          apply in_app_iff. right. left. reflexivity. }
      split; [cbn [ins]; rewrite Hpop; reflexivity|]. split; [exact Hwp|]. split; [exact Hpp|].
      split.
      * cbn [wf]. rewrite ends_ins in Hends. repeat split; auto.
        intros o' Hin. apply Hleft. apply right_ops_ins_sub, Hin.
      * destruct j as [oj|]; simpl in *; [exact Hj|]. destruct Hj as [Hi Hjx]. split; [exact Hi|].
        rewrite <- Hjx. apply juxtaposed_head. cbn [print].
        destruct (first_not_close_comma c l' Hwl') as (t & q & El & _). rewrite El. reflexivity.
  - right. right. destruct Hwf as (Hl & Hr & Hi & Hj & Hright). exists None, l, r.
    assert (Hpl := juxtaposed_primary l r Hj).
    split; [|repeat split; auto].
    destruct (ins_cases None l r) as [[E _]|(o' & l1 & r1 & -> & Hpop & _)]; [rewrite E; reflexivity|].
    exfalso. apply pops_spec in Hpop. revert Hpop. apply Hright. simpl. apply in_app_iff. right. left. reflexivity.
Qed.

(** The converse of coverage. *)
Lemma grammatical : forall n e, length (print e) <= n -> wf c e ->
  g_expr c (print e) /\ (is_primary e = true -> g_primary c (print e)).
Proof.
  induction n as [|n IH]; intros e Hn Hwf.
  { pose proof (print_nonempty c e Hwf) as Hne. destruct (print e); [contradiction|simpl in Hn; lia]. }
  assert (Hprim : is_primary e = true -> g_primary c (print e)).
  { intros Hp. destruct e as [v|x|x|g e|f g args|u e|e u|o l r|l r]; try discriminate Hp.
    - apply GP_atom. reflexivity. - apply GP_atom. reflexivity. - apply GP_atom. reflexivity.
    - cbn [print app] in *. apply GP_group. apply IH; [|exact Hwf]. simpl in Hn. rewrite app_length in Hn. simpl in Hn. lia.
    - destruct Hwf as (Hne & Hcu & Hargs). rewrite wf_args_Forall in Hargs. cbn [print app] in *. apply GP_call; auto.
      simpl in Hn. rewrite app_length in Hn. simpl in Hn.
      assert (Hlen : length (join [TComma] (map print args)) <= n) by lia. clear Hn.
      induction Hargs as [|a args Ha Hargs IHa]; [contradiction|].
      destruct args as [|b args].
      + apply GA_one. apply IH; [exact Hlen|exact Ha].
      + assert (Ej : join [TComma] (map print (a :: b :: args)) =
           print a ++ [TComma] ++ join [TComma] (map print (b :: args))) by reflexivity.
        rewrite Ej in *. rewrite !app_length in Hlen. simpl length in Hlen at 2.
        apply GA_more.
        * apply IH; [lia|exact Ha].
        * apply IHa; [discriminate|reflexivity|lia].
    - simpl in Hp. destruct Hwf as (_ & Hu & _). destruct e; try discriminate Hp; apply GP_signed; auto.
    - destruct Hwf as (Hw & Hu & Hpe). cbn [print] in *. rewrite app_length in Hn. simpl in Hn.
      apply GP_post; [|exact Hu]. apply IH; [lia|exact Hw|exact Hpe]. }
  split; [|exact Hprim].
  destruct (decompose e Hwf) as [Hp|[(u & e' & -> & Ha)|(j & p & e' & -> & Hwp & Hpp & Hwe & Hj)]].
  - apply G_primary, Hprim, Hp.
  - destruct Hwf as (Hw & Hu & [Hs|Hs]); [congruence|]. cbn [print app] in *. apply G_prefix; auto.
    apply IH; [simpl in Hn; lia|exact Hw].
  - rewrite print_ins in *.
    pose proof (print_nonempty c p Hwp) as Hnp. pose proof (print_nonempty c e' Hwe) as Hne.
    assert (Hlp : 1 <= length (print p)) by (destruct (print p); [contradiction|simpl; lia]).
    assert (Hle : 1 <= length (print e')) by (destruct (print e'); [contradiction|simpl; lia]).
    rewrite !app_length in Hn.
    destruct j as [o|]; cbn [jtok] in *.
    + simpl length in Hn. apply G_binary; [apply IH; auto; lia|exact Hj|apply IH; auto; lia].
    + destruct Hj as [Hi Hjx]. cbn [app]. simpl length in Hn.
      destruct (exists_last Hnp) as (q & a & Eq). destruct (print e') as [|b r] eqn:Er; [contradiction|].
      rewrite Eq. apply G_juxta; auto.
      * rewrite <- Eq. apply IH; auto. lia.
      * rewrite <- Er. apply IH; auto. rewrite Er. lia.
      * assert (Hl : last (print p) TComma = a) by (rewrite Eq; apply last_tok_close).
        unfold juxtaposed in Hjx. rewrite Er in Hjx.
        destruct p as [v|x|x|g e0|f g args|u e0|e0 u|o l r0|l r0]; try discriminate Hjx.
        -- simpl in Hl. subst a. destruct b; try discriminate Hjx; reflexivity.
        -- cbn [print app] in Hl. rewrite app_comm_cons, last_tok_close in Hl. subst a.
           destruct b; try discriminate Hjx; reflexivity.
        -- cbn [print app] in Hl. rewrite !app_comm_cons, last_tok_close in Hl. subst a.
           destruct b; try discriminate Hjx; reflexivity.
        -- destruct e0; try discriminate Hjx. simpl in Hl. subst a. destruct b; try discriminate Hjx; reflexivity.
Qed.

End Grammar.
