(** * Arithmetic text in the default integer contexts *)
From Coq Require Import List NArith ZArith Bool Arith Lia String.
From Verif Require Import ModelBase ModelContext ModelEvaluator ModelText ModelDefault ModelFloat ModelNum ModelOps ModelSplit ModelTokenizer ModelParse
  SpecExpr SpecText SpecOps SpecLex SpecParse SpecTokenizer ProofText ProofDefault ProofBuild ProofCtx ProofOps ProofSplit ProofLex ProofTok ProofExprText ProofParse.
Import ListNotations.

Section IntText.
Context {W : Type}.
Variables (t : ity) (dbg : bool) (L : libm) (rnd : W -> f64 * W) (docs : bool) (E : env) (cf : config) (d : dctx Z W).
Hypothesis H : checked_context (int_num t dbg) L rnd docs E dbg cf = Ok d.
Hypothesis Hb : (0 < bits t)%Z.
Notation c := (to_ctx E d).
Notation pz := (parse_int t).

Definition absent (q : str) (names : list str) : bool := nameb q && forallb nameb names && forallb (fun n => negb (str_eqb (low q) (low n))) names.
Lemma absent_none : forall A (f : A -> str) l q, absent q (map f l) = true -> mget (key_match E) (map (fun x => (f x, x)) l) q = None.
Proof.
  intros A f l q X. unfold absent in X. apply andb_true_iff in X. destruct X as [X X3]. apply andb_true_iff in X. destruct X as [X1 X2].
  apply mget_none. apply Forall_forall. intros [k v] Hk. apply in_map_iff in Hk. destruct Hk as (x & Hx & Hin). injection Hx as <- <-. cbn [fst]. 
  rewrite forallb_forall in X2, X3. specialize (X2 (f x) (in_map f l x Hin)). specialize (X3 (f x) (in_map f l x Hin)). rewrite km_low by assumption. apply negb_true_iff. exact X3.
Qed.
Definition absent_all (q : str) : bool :=
  absent q (map (@fn_name Z W) (checked_funs (int_num t dbg) L rnd docs)) && absent q [lit "PI"; lit "E"].
Lemma names_absent : forall q, absent_all q = true -> get_variable c q = None /\ get_constant c q = None /\ get_function c q = None.
Proof.
  intros q X. apply andb_true_iff in X. destruct X as [X1 X2]. apply checked_inv in H. destruct H as (p & e & _ & _ & ->). split; [reflexivity|]. split.
  - cbn [to_ctx get_constant ctx_of d_consts]. apply mget_none. apply andb_true_iff in X2. destruct X2 as [X2 X3]. apply andb_true_iff in X2. destruct X2 as [X2 X4].
    cbn [forallb] in X3. apply andb_true_iff in X3. destruct X3 as [X3 X5]. apply andb_true_iff in X5. destruct X5 as [X5 _]. apply negb_true_iff in X3, X5.
    repeat constructor; cbn [fst]; rewrite km_low; try assumption; reflexivity.
  - cbn [to_ctx get_function ctx_of d_funs]. apply absent_none. exact X1.
Qed.
Lemma un_absent : forall q, absent q [lit "+"; lit "-"; lit "!"] = true -> get_unary c q = None.
Proof. intros q X. apply checked_inv in H. destruct H as (p & e & _ & _ & ->). cbn [to_ctx get_unary ctx_of d_unary]. apply absent_none. exact X. Qed.
Lemma bin_absent : forall q, absent q (map (@bf_name Z W) (checked_bins (int_num t dbg) L)) = true -> get_binary c q = None.
Proof. intros q X. apply checked_inv in H. destruct H as (p & e & _ & _ & ->). cbn [to_ctx get_binary ctx_of d_binary]. apply absent_none. exact X. Qed.

Definition arith_ops : list str := [lit "+"; lit "-"; lit "*"; lit "/"; lit "mod"].
Definition brackets : list str := [lit "("; lit ")"; lit "["; lit "]"; lit "{"; lit "}"].
Lemma parse_none : forall q, In q (arith_ops ++ brackets) -> pz q = None.
Proof.
  intros q Hq. cbn in Hq. unfold parse_int, from_str_radix.
  repeat (destruct Hq as [<-|Hq]; [reflexivity || (cbn; destruct (signed t); cbn; destruct (checked t _); reflexivity)|]). destruct Hq.
Qed.
Lemma all_absent : forall q, In q (arith_ops ++ brackets) -> absent_all q = true.
Proof.
  assert (G : forallb absent_all (arith_ops ++ brackets) = true) by (clear; unfold absent_all, checked_funs; destruct docs; vm_compute; reflexivity).
  intros q Hq. rewrite forallb_forall in G. exact (G q Hq).
Qed.
Lemma op_only : forall q, In q (arith_ops ++ brackets) -> operator_only c pz q.
Proof.
  intros q Hq. destruct (names_absent q (all_absent q Hq)) as (A1 & A2 & A3). unfold operator_only, variable, constant, function. rewrite A1, A2, A3.
  split; [apply parse_none; exact Hq|]. tauto.
Qed.
Lemma bracket_nameless : forall q, In q brackets -> nameless c pz q.
Proof.
  intros q Hq. split; [apply op_only; apply in_or_app; right; exact Hq|]. unfold unary, binary.
  assert (G : forallb (fun q => absent q [lit "+"; lit "-"; lit "!"] && absent q (map (@bf_name Z W) (checked_bins (int_num t dbg) L))) brackets = true) by (vm_compute; reflexivity).
  rewrite forallb_forall in G. specialize (G q Hq). apply andb_true_iff in G. destruct G as [G1 G2]. rewrite (un_absent q G1), (bin_absent q G2). tauto.
Qed.
Lemma bins_found : forall q, In q arith_ops -> get_binary c q <> None.
Proof.
  intros q Hq. unfold arith_ops in Hq. cbn [In] in Hq.
  destruct Hq as [<-|[<-|[<-|[<-|[<-|[]]]]]];
    [rewrite (checked_bin _ L rnd docs E dbg cf d 0%nat _ (lit "+") H eq_refl (alike_refl _))|rewrite (checked_bin _ L rnd docs E dbg cf d 1%nat _ (lit "-") H eq_refl (alike_refl _))
    |rewrite (checked_bin _ L rnd docs E dbg cf d 2%nat _ (lit "*") H eq_refl (alike_refl _))|rewrite (checked_bin _ L rnd docs E dbg cf d 3%nat _ (lit "/") H eq_refl (alike_refl _))
    |rewrite (checked_bin _ L rnd docs E dbg cf d 5%nat _ (lit "mod") H eq_refl (alike_refl _))]; discriminate.
Qed.
Lemma signs_prefix : forall q n, In q [lit "+"; lit "-"] -> has_notation c q n -> n = Prefix.
Proof.
  intros q n Hq (f & Hf & <-). cbn [In] in Hq. destruct Hq as [<-|[<-|[]]].
  - rewrite (checked_un _ L rnd docs E dbg cf d 0%nat _ (lit "+") H eq_refl (alike_refl _)) in Hf. injection Hf as <-. reflexivity.
  - rewrite (checked_un _ L rnd docs E dbg cf d 1%nat _ (lit "-") H eq_refl (alike_refl _)) in Hf. injection Hf as <-. reflexivity.
Qed.
Lemma others_not_unary : forall q, In q [lit "*"; lit "/"; lit "mod"; lit "m"] -> get_unary c q = None.
Proof.
  intros q Hq. apply un_absent. assert (G : forallb (fun q => absent q [lit "+"; lit "-"; lit "!"]) [lit "*"; lit "/"; lit "mod"; lit "m"] = true) by (vm_compute; reflexivity).
  rewrite forallb_forall in G. exact (G q Hq).
Qed.
Lemma op_signs : forall q, In q arith_ops -> sign_may_follow c q.
Proof.
  intros q Hq. split.
  - intros (ch & r & -> & Hu & Hn). unfold unary in Hu. unfold binary in Hn. cbn [In arith_ops] in Hq.
    destruct Hq as [X|[X|[X|[X|[X|[]]]]]]; injection X as <- <-;
      try (apply Hn; refine (bins_found _ _); cbn; tauto). apply Hu. apply others_not_unary. cbn. tauto.
  - intros (ch & -> & Hp). cbn [In arith_ops] in Hq. destruct Hq as [X|[X|[X|[X|[X|[]]]]]]; try discriminate X; injection X as <-; discriminate.
Qed.
Lemma op_words : forall q, In q arith_ops -> ident_word q \/ operator_word q.
Proof.
  intros q Hq. cbn [In arith_ops] in Hq.
  destruct Hq as [<-|[<-|[<-|[<-|[<-|[]]]]]];
  try (right; split; [discriminate|]; split; [constructor; [apply op_spec; reflexivity|constructor]|]; intros ch r X; injection X as <- <-; unfold letter; lia).
  left. exists 109%N, (lit "od"). split; [reflexivity|]. split; [unfold letter; lia|]. apply Forall_forall. intros x Hx. left. cbn in Hx. destruct Hx as [<-|[<-|[]]]; unfold letter; lia.
Qed.
Lemma group_bracket : forall g, In [grouping_open g] brackets /\ In [grouping_close g] brackets.
Proof. intros []; cbn; tauto. Qed.

Lemma plain_spells : forall e, arithmetic e -> literals_fit t e -> forall ws, Forall2 plain_word (print e) ws -> Forall2 (spells c pz) (print e) ws /\ ~ In (lit "i") ws.
Proof.
  assert (A : forall a b wa wb, Forall2 (spells c pz) a wa /\ ~ In (lit "i") wa -> Forall2 (spells c pz) b wb /\ ~ In (lit "i") wb -> Forall2 (spells c pz) (a ++ b) (wa ++ wb) /\ ~ In (lit "i") (wa ++ wb)).
  { intros a b wa wb [A1 A2] [B1 B2]. split; [apply Forall2_app; assumption|]. intros X. apply in_app_or in X. tauto. }
  assert (B : forall tk w, spells c pz tk w -> w <> lit "i" -> Forall2 (spells c pz) [tk] [w] /\ ~ In (lit "i") [w]).
  { intros tk w X Y. split; [constructor; [exact X|constructor]|]. intros [Z|[]]. contradiction. }
  assert (OB : forall o, In o arith_ops -> spells c pz (TBinary o) o).
  { intros o Ho. split; [reflexivity|]. split; [apply op_only; apply in_or_app; left; exact Ho|]. split; [apply op_words; exact Ho|].
    intros X. unfold arith_ops in Ho. cbn [In] in Ho.
    destruct Ho as [<-|[<-|Ho]]; [discriminate (signs_prefix _ _ (or_introl eq_refl) X)|discriminate (signs_prefix _ _ (or_intror (or_introl eq_refl)) X)|].
    destruct X as (f & Hf & _). rewrite others_not_unary in Hf; [discriminate|]. cbn [In]. tauto. }
  assert (OU : forall u, In u [lit "+"; lit "-"] -> spells c pz (TUnary u) u).
  { intros u Hu. assert (Hu' : In u arith_ops) by (cbn [In] in Hu; cbn; tauto). split; [reflexivity|]. split; [apply op_only; apply in_or_app; left; exact Hu'|]. split; [apply op_words; exact Hu'|].
    intros X. discriminate (signs_prefix u _ Hu X). }
  assert (NI : forall o, In o (arith_ops ++ brackets) -> o <> lit "i").
  { intros o Ho X. subst o. cbn in Ho. repeat (destruct Ho as [Ho|Ho]; [discriminate|]). exact Ho. }
  induction e as [v|x|x|g e IH|f g args IH|u e IH|e u IH|o l r IHl IHr|l r IHl IHr] using expr_ind'; intros Ha Hl ws Hs; try destruct Ha; cbn [print] in *.
  - inversion Hs as [|? s ? ws' Hx Hr]; subst. destruct Hx as [Hd Hn]. inversion Hr; subst. apply B.
    + cbn [spells]. apply parse_int_spec; [exact Hb|]. split; [apply numeral_plain; assumption|exact Hl].
    + intros X. subst s. pose proof (digits_char 10 _ _ 105%N ltac:(lia) Hd ltac:(left; reflexivity)). lia.
  - apply Forall2_app_inv_l in Hs. destruct Hs as (w1 & w2 & S1 & S2 & ->). inversion S1 as [|? s ? ws' Hx Hr]; subst. inversion Hr; subst. cbn [plain_word] in Hx. subst s.
    apply Forall2_app_inv_l in S2. destruct S2 as (w3 & w4 & S3 & S4 & ->). inversion S4 as [|? s ? ws' Hx Hr4]; subst. inversion Hr4; subst. cbn [plain_word] in Hx. subst s.
    destruct (group_bracket g) as [G1 G2]. apply A; [|apply A; [apply IH; assumption|]]; (apply B; [split; [reflexivity|apply bracket_nameless; assumption]|apply NI; apply in_or_app; right; assumption]).
  - apply Forall2_app_inv_l in Hs. destruct Hs as (w1 & w2 & S1 & S2 & ->). inversion S1 as [|? s ? ws' Hx Hr]; subst. inversion Hr; subst. cbn [plain_word] in Hx. subst s.
    apply A; [|apply IH; assumption]. apply B; [apply OU; assumption|]. apply NI. cbn [In] in H0. cbn. tauto.
  - apply Forall2_app_inv_l in Hs. destruct Hs as (w1 & w2 & S1 & S2 & ->). apply Forall2_app_inv_l in S2. destruct S2 as (w3 & w4 & S3 & S4 & ->).
    inversion S3 as [|? s ? ws' Hx Hr]; subst. inversion Hr; subst. cbn [plain_word] in Hx. subst s. destruct H1. destruct Hl. apply A; [apply IHl; assumption|]. apply A; [|apply IHr; assumption].
    apply B; [apply OB; exact H0|]. apply NI. apply in_or_app. left. exact H0.
  - apply Forall2_app_inv_l in Hs. destruct Hs as (w1 & w2 & S1 & S2 & ->). destruct Hl. apply A; [apply IHl|apply IHr]; assumption.
Qed.
Lemma arithmetic_single : forall e, arithmetic e -> readable (to_ctx E d) e.
Proof.
  induction e as [v|x|x|g e IH|f g args IH|u e IH|e u IH|o l r IHl IHr|l r IHl IHr] using expr_ind'; intros Ha; try destruct Ha; simpl; auto; [split; [auto|]; intros _; apply op_signs; cbn [In] in H0; cbn; tauto|]. destruct H1. split; [auto|]. split; [auto|]. intros _. apply op_signs. exact H0.
Qed.
Lemma plain_text : forall e s ws, arithmetic e -> literals_fit t e -> Forall2 plain_word (print e) ws -> lexes s ws -> text_of c pz e s.
Proof.
  intros e s ws Ha Hl Hs Hx. destruct (plain_spells e Ha Hl ws Hs) as [H1 H2]. exists ws. split; [exact Hx|]. split; [exact H1|]. split; [apply arithmetic_single; exact Ha|auto].
Qed.
End IntText.
