(** * A token sequence is the text of at most one well-formed tree *)
From Coq Require Import List NArith Bool Arith Lia.
From Verif Require Import ModelBase ModelContext ModelEvaluator SpecExpr SpecGrammar ProofYard ProofGrammar.
Import ListNotations.

Section Unique.
Context {V W : Type}.
Variable c : ctx V W.
Notation tok := (token V).

(** What follows a complete expression, and what follows a complete primary. *)
Definition term (y : list tok) : Prop :=
  match y with [] | TClose _ :: _ | TComma :: _ => True | _ => False end.
Definition cont (r : list tok) : Prop :=
  match r with TUnary u :: _ => ~ has_notation c u Postfix | _ => True end.

Fixpoint base (p : expr V) : expr V := match p with EPost e _ => base e | _ => p end.
Fixpoint posts (p : expr V) : list str := match p with EPost e u => posts e ++ [u] | _ => [] end.

Lemma print_base : forall p, print p = print (base p) ++ map TUnary (posts p).
Proof.
  induction p as [v|x|x|g e IH|f g args IH|u e IH|e u IH|o l r IHl IHr|l r IHl IHr] using expr_ind';
    simpl; try (rewrite app_nil_r; reflexivity); try reflexivity.
  rewrite map_app, app_assoc, <- IH. reflexivity.
Qed.

Lemma base_wf : forall p, wf c p -> is_primary p = true ->
  wf c (base p) /\ is_primary (base p) = true /\ (forall u, In u (posts p) -> has_notation c u Postfix).
Proof.
  induction p as [v|x|x|g e IH|f g args IH|u e IH|e u IH|o l r IHl IHr|l r IHl IHr] using expr_ind';
    intros Hw Hp; try (split; [exact Hw|split; [exact Hp|intros ? []]]).
  - destruct Hw as (Hw & Hu & Hpe). destruct (IH Hw Hpe) as (H1 & H2 & H3). split; [exact H1|]. split; [exact H2|].
    intros u' Hin. simpl in Hin. apply in_app_iff in Hin. destruct Hin as [Hin|[<-|[]]]; auto.
Qed.

Lemma base_posts_inj : forall p1 p2 : expr V, base p1 = base p2 -> posts p1 = posts p2 -> p1 = p2.
Proof.
  induction p1 as [v|x|x|g e IH|f g args IH|u e IH|e u IH|o l r IHl IHr|l r IHl IHr] using expr_ind';
    intros p2 Hb Hp; try (destruct p2; simpl in *; try congruence;
      exfalso; symmetry in Hp; apply app_eq_nil in Hp; destruct Hp; discriminate).
  destruct p2; simpl in *; try (exfalso; apply app_eq_nil in Hp; destruct Hp; discriminate).
  apply app_inj_tail in Hp. destruct Hp as [Hp ->]. f_equal. apply IH; auto.
Qed.

Lemma base_not_post : forall p e u, base p <> EPost e u.
Proof.
  induction p as [v|x|x|g e IH|f g args IH|u e IH|e u IH|o l r IHl IHr|l r IHl IHr] using expr_ind';
    intros; simpl; try discriminate. apply IH.
Qed.

Lemma open_inj : forall g g', grouping_open g = grouping_open g' -> g = g'.
Proof. intros [] [] H; try reflexivity; discriminate. Qed.

Lemma posts_unique : forall us1 us2 (r1 r2 : list tok),
  (forall u, In u us1 -> has_notation c u Postfix) -> (forall u, In u us2 -> has_notation c u Postfix) ->
  cont r1 -> cont r2 -> map TUnary us1 ++ r1 = map TUnary us2 ++ r2 -> us1 = us2 /\ r1 = r2.
Proof.
  induction us1 as [|u us1 IH]; intros [|u2 us2] r1 r2 H1 H2 C1 C2 E; simpl in E.
  - auto.
  - exfalso. subst r1. simpl in C1. apply C1, H2. left. reflexivity.
  - exfalso. subst r2. simpl in C2. apply C2, H1. left. reflexivity.
  - injection E as -> E. destruct (IH us2 r1 r2) as [-> ->]; auto.
    + intros u Hu. apply H1. right. exact Hu.
    + intros u Hu. apply H2. right. exact Hu.
Qed.

Lemma base_start_unary : forall b u r, wf c b -> is_primary b = true -> (forall e v, b <> EPost e v) ->
  forall q, print b ++ r = TUnary u :: q -> exists a, is_atom a = true /\ b = EPre u a.
Proof.
  intros b u r Hw Hp Hb q E. destruct b as [v|x|x|g e|f g args|u' e|e u'|o l r'|l r']; try discriminate Hp;
    simpl in E; try discriminate E.
  - injection E as -> E. exists e. auto.
  - exfalso. eapply Hb. reflexivity.
Qed.

Definition uniq (n : nat) : Prop := forall e1 e2 y1 y2, length (print e1) <= n -> wf c e1 -> wf c e2 ->
  term y1 -> term y2 -> print e1 ++ y1 = print e2 ++ y2 -> e1 = e2 /\ y1 = y2.

Lemma args_unique : forall n, uniq n -> forall args1 args2 y1 y2 cl1 cl2,
  length (join [TComma] (map print args1)) <= n -> args1 <> [] -> args2 <> [] ->
  Forall (wf c) args1 -> Forall (wf c) args2 ->
  join [TComma] (map print args1) ++ TClose cl1 :: y1 = join [TComma] (map print args2) ++ TClose cl2 :: y2 ->
  args1 = args2 /\ cl1 = cl2 /\ y1 = y2.
Proof.
  intros n U. induction args1 as [|a1 args1 IH]; intros args2 y1 y2 cl1 cl2 Hlen N1 N2 W1 W2 E; [contradiction|].
  destruct args2 as [|a2 args2]; [contradiction|].
  inversion W1 as [|? ? Wa1 Ws1]; subst. inversion W2 as [|? ? Wa2 Ws2]; subst.
  assert (Sp : forall a args cl y, exists z, join [TComma] (map print (a :: args)) ++ TClose cl :: y = print a ++ z
     /\ term z /\ ((args = [] /\ z = TClose cl :: y) \/
        (args <> [] /\ z = TComma :: join [TComma] (map print args) ++ TClose cl :: y))).
  { intros a args cl y. destruct args as [|b args].
    - exists (TClose cl :: y). split; [reflexivity|]. split; [exact I|]. left. auto.
    - exists (TComma :: join [TComma] (map print (b :: args)) ++ TClose cl :: y). split.
      + change (join [TComma] (map print (a :: b :: args))) with
          (print a ++ TComma :: join [TComma] (map print (b :: args))). rewrite <- app_assoc. reflexivity.
      + split; [exact I|]. right. split; [discriminate|reflexivity]. }
  destruct (Sp a1 args1 cl1 y1) as (z1 & E1 & T1 & D1). destruct (Sp a2 args2 cl2 y2) as (z2 & E2 & T2 & D2).
  assert (Hle : length (print a1) <= n).
  { destruct args1; [exact Hlen|].
    change (join [TComma] (map print (a1 :: e :: args1))) with
      (print a1 ++ TComma :: join [TComma] (map print (e :: args1))) in Hlen.
    rewrite app_length in Hlen. lia. }
  rewrite E1, E2 in E. destruct (U a1 a2 z1 z2 Hle Wa1 Wa2 T1 T2 E) as [-> Ez].
  destruct D1 as [[-> Z1]|[M1 Z1]]; destruct D2 as [[-> Z2]|[M2 Z2]]; rewrite Z1, Z2 in Ez; try discriminate Ez.
  - injection Ez as -> ->. auto.
  - injection Ez as Ez. destruct (IH args2 y1 y2 cl1 cl2) as (-> & -> & ->); auto.
    destruct args1; [contradiction|].
    change (join [TComma] (map print (a2 :: e :: args1))) with
      (print a2 ++ TComma :: join [TComma] (map print (e :: args1))) in Hlen.
    rewrite app_length in Hlen. simpl in Hlen. simpl. lia.
Qed.

Lemma base_unique : forall n, uniq n -> forall b1 b2 x1 x2, length (print b1) <= S n ->
  wf c b1 -> wf c b2 -> is_primary b1 = true -> is_primary b2 = true ->
  (forall e v, b1 <> EPost e v) -> (forall e v, b2 <> EPost e v) ->
  print b1 ++ x1 = print b2 ++ x2 -> b1 = b2 /\ x1 = x2.
Proof.
  intros n U b1 b2 x1 x2 Hlen W1 W2 P1 P2 N1 N2 E.
  destruct b1 as [v|x|x|g e|f g args|u e|e u|o l r|l r]; try discriminate P1;
    try (exfalso; eapply N1; reflexivity);
  destruct b2 as [v'|x'|x'|g' e'|f' g' args'|u' e'|e' u'|o' l' r'|l' r']; try discriminate P2;
    try (exfalso; eapply N2; reflexivity);
    try discriminate E.
  - injection E as -> ->. auto.
  - injection E as -> ->. auto.
  - injection E as -> ->. auto.
  - cbn [print app] in E. rewrite <- !app_assoc in E. cbn [app] in E. injection E as Eg E.
    apply open_inj in Eg. subst g'.
    destruct (U e e' (TClose (grouping_close g) :: x1) (TClose (grouping_close g) :: x2)) as [-> Ez]; auto.
    + cbn [print app] in Hlen. simpl in Hlen. rewrite app_length in Hlen. simpl in Hlen. lia.
    + exact I. + exact I.
    + injection Ez as ->. auto.
  - cbn [print app] in E. rewrite <- !app_assoc in E. cbn [app] in E. injection E as -> Eg E.
    apply open_inj in Eg. subst g'.
    destruct W1 as (M1 & _ & F1). destruct W2 as (M2 & _ & F2). rewrite wf_args_Forall in F1, F2.
    edestruct (args_unique n U args args' x1 x2) as (-> & _ & ->); [|exact M1|exact M2|exact F1|exact F2|exact E|auto].
    cbn [print app] in Hlen. simpl in Hlen. rewrite app_length in Hlen. simpl in Hlen. lia.
  - simpl in P1, P2. destruct e; try discriminate P1; destruct e'; try discriminate P2; simpl in E;
      try discriminate E; injection E as -> -> ->; auto.
Qed.

Lemma primary_unique : forall n, uniq n -> forall p1 p2 r1 r2, length (print p1) <= S n ->
  wf c p1 -> wf c p2 -> is_primary p1 = true -> is_primary p2 = true -> cont r1 -> cont r2 ->
  print p1 ++ r1 = print p2 ++ r2 -> p1 = p2 /\ r1 = r2.
Proof.
  intros n U p1 p2 r1 r2 Hlen W1 W2 P1 P2 C1 C2 E.
  destruct (base_wf p1 W1 P1) as (Wb1 & Pb1 & Q1). destruct (base_wf p2 W2 P2) as (Wb2 & Pb2 & Q2).
  rewrite (print_base p1), (print_base p2) in E. rewrite <- !app_assoc in E.
  assert (Hlb : length (print (base p1)) <= S n) by (rewrite (print_base p1), app_length in Hlen; lia).
  destruct (base_unique n U (base p1) (base p2) _ _ Hlb Wb1 Wb2 Pb1 Pb2 (base_not_post p1) (base_not_post p2) E)
    as [Eb Ex].
  destruct (posts_unique _ _ _ _ Q1 Q2 C1 C2 Ex) as [Ep ->].
  split; [|reflexivity]. apply base_posts_inj; auto.
Qed.

Lemma junction_head : forall j p e y, junction c j p e -> wf c e ->
  exists t q, jtok j ++ print e ++ y = t :: q /\
  match t with
  | TBinary o => j = Some o /\ q = print e ++ y
  | TNumber _ | TVariable _ | TConstant _ | TFunction _ | TOpen _ => j = None /\ t :: q = print e ++ y
  | _ => False
  end.
Proof.
  intros j p e y Hj Hw. destruct j as [o|]; simpl.
  - exists (TBinary o), (print e ++ y). auto.
  - destruct Hj as [_ Hjx]. destruct (first_not_close_comma c e Hw) as (t & q & Et & _ & _). rewrite Et.
    exists t, (q ++ y). split; [reflexivity|]. unfold juxtaposed in Hjx. rewrite Et in Hjx.
    destruct p as [v|x|x|g e0|f g args|u e0|e0 u|o l r|l r]; try discriminate Hjx;
      try (destruct t; try discriminate Hjx; auto; fail).
    destruct e0; try discriminate Hjx; destruct t; try discriminate Hjx; auto.
Qed.

(** Every tree, as a primary followed by a remainder, or as a prefix operator. *)
Lemma split_tree : forall e y, wf c e -> term y ->
  (exists u e', e = EPre u e' /\ is_atom e' = false /\ wf c e' /\ starts_with_atom e' = false)
  \/ (exists p r, wf c p /\ is_primary p = true /\ cont r /\ print e ++ y = print p ++ r /\
      ((e = p /\ r = y) \/
       (exists j e', e = ins c j p e' /\ wf c e' /\ junction c j p e' /\ r = jtok j ++ print e' ++ y))).
Proof.
  intros e y Hw Ht.
  destruct (decompose c e Hw) as [Hp|[(u & e' & -> & Ha)|(j & p & e' & -> & Hwp & Hpp & Hwe & Hj)]].
  - right. exists e, y. repeat split; auto. destruct y as [|[] ?]; try contradiction; exact I.
  - left. exists u, e'. destruct Hw as (Hw & _ & [Hs|Hs]); [congruence|]. auto.
  - right. exists p, (jtok j ++ print e' ++ y). repeat split; auto.
    + destruct (junction_head j p e' y Hj Hwe) as (t & q & -> & Hm). destruct t; try contradiction; exact I.
    + rewrite print_ins, <- !app_assoc. reflexivity.
    + right. exists j, e'. auto.
Qed.

Lemma uniq_all : forall n, uniq n.
Proof.
  induction n as [|n IH]; intros e1 e2 y1 y2 Hlen W1 W2 T1 T2 E.
  { pose proof (print_nonempty c e1 W1) as Hne. destruct (print e1); [contradiction|simpl in Hlen; lia]. }
  destruct (split_tree e1 y1 W1 T1) as [(u1 & d1 & -> & A1 & Wd1 & S1)|(p1 & r1 & Wp1 & Pp1 & C1 & E1 & D1)];
  destruct (split_tree e2 y2 W2 T2) as [(u2 & d2 & -> & A2 & Wd2 & S2)|(p2 & r2 & Wp2 & Pp2 & C2 & E2 & D2)].
  - cbn [print app] in E. injection E as -> E. cbn [print app] in Hlen. simpl in Hlen.
    destruct (IH d1 d2 y1 y2) as [-> ->]; auto. lia.
  - exfalso. rewrite E2 in E. cbn [print app] in E. symmetry in E.
    destruct (base_wf p2 Wp2 Pp2) as (Wb & Pb & _). rewrite (print_base p2), <- app_assoc in E.
    destruct (base_start_unary (base p2) u1 _ Wb Pb (base_not_post p2) _ E) as (a & Ha & Eb).
    rewrite Eb in E. cbn [print app] in E. injection E as E.
    unfold starts_with_atom in S1. pose proof (print_nonempty c d1 Wd1) as Hne.
    destruct (print d1) as [|t q]; [contradiction|]. destruct a; try discriminate Ha; simpl in E; injection E as <- _;
      discriminate S1.
  - exfalso. rewrite E1 in E. cbn [print app] in E.
    destruct (base_wf p1 Wp1 Pp1) as (Wb & Pb & _). rewrite (print_base p1), <- app_assoc in E.
    destruct (base_start_unary (base p1) u2 _ Wb Pb (base_not_post p1) _ E) as (a & Ha & Eb).
    rewrite Eb in E. cbn [print app] in E. injection E as E.
    unfold starts_with_atom in S2. pose proof (print_nonempty c d2 Wd2) as Hne.
    destruct (print d2) as [|t q]; [contradiction|]. destruct a; try discriminate Ha; simpl in E; injection E as <- _;
      discriminate S2.
  - rewrite E1, E2 in E.
    assert (Hlp : length (print p1) <= S n).
    { destruct D1 as [[-> _]|(j & d & -> & _)]; [exact Hlen|]. rewrite print_ins, app_length in Hlen. lia. }
    destruct (primary_unique n IH p1 p2 r1 r2 Hlp Wp1 Wp2 Pp1 Pp2 C1 C2 E) as [<- <-].
    destruct D1 as [[-> ->]|(j1 & d1 & -> & Wd1 & J1 & ->)];
    destruct D2 as [[-> Er]|(j2 & d2 & -> & Wd2 & J2 & Er)].
    + auto.
    + exfalso. destruct (junction_head j2 p1 d2 y2 J2 Wd2) as (t & q & Eh & Hm). rewrite Eh in Er. subst y1.
      destruct t; contradiction.
    + exfalso. destruct (junction_head j1 p1 d1 y1 J1 Wd1) as (t & q & Eh & Hm). rewrite Eh in Er. subst y2.
      destruct t; contradiction.
    + destruct (junction_head j1 p1 d1 y1 J1 Wd1) as (t1 & q1 & Eh1 & Hm1).
      destruct (junction_head j2 p1 d2 y2 J2 Wd2) as (t2 & q2 & Eh2 & Hm2).
      rewrite Eh1, Eh2 in Er. injection Er as <- <-.
      assert (Hj : j1 = j2 /\ print d1 ++ y1 = print d2 ++ y2).
      { destruct t1; try contradiction; destruct Hm1 as [-> Q1]; destruct Hm2 as [-> Q2]; split; congruence. }
      destruct Hj as [<- Ed].
      destruct (IH d1 d2 y1 y2) as [-> ->]; auto.
      rewrite print_ins, !app_length in Hlen.
      pose proof (print_nonempty c p1 Wp1) as Hnp. destruct (print p1); [contradiction|]. simpl in Hlen. lia.
Qed.

Theorem print_injective : forall e1 e2, wf c e1 -> wf c e2 -> print e1 = print e2 -> e1 = e2.
Proof.
  intros e1 e2 W1 W2 E.
  destruct (uniq_all (length (print e1)) e1 e2 [] [] (le_n _) W1 W2 I I) as [H _]; [|exact H].
  rewrite !app_nil_r. exact E.
Qed.

End Unique.
