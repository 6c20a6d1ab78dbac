(** * From source text to tokens, in every default context *)
From Coq Require Import List NArith ZArith QArith Bool Arith Lia String.
From Verif Require Import ModelBase ModelContext ModelEvaluator ModelText ModelDefault ModelFloat ModelNum ModelOps ModelSplit ModelTokenizer ModelParse
  SpecExpr SpecText SpecOps SpecLex SpecParse SpecTokenizer SpecDecimal SpecSource ProofText ProofDefault ProofBuild ProofCtx ProofOps ProofSplit ProofLex ProofTok ProofExprText ProofParse ProofIntText.
Import ListNotations.

Section Source.
Context {V W : Type}.
Variables (consts : list (str * V)) (bins : list (bfunc V W)) (uns : list (ufunc V W)) (funs : list (func V W)) (cf : config) (E : env).
Notation d := (DCtx [] consts (map (fun f => (fn_name f, f)) funs) (map (fun f => (uf_name f, f)) uns) (map (fun f => (bf_name f, f)) bins) cf).
Notation c := (to_ctx E d).
(** What is asked of the names of a context, checked by computation. *)
Definition present (q : str) (names : list str) : bool := existsb (str_eqb q) names.
Definition tidy : bool :=
  forallb (fun q => absent q (map fn_name funs) && absent q (map fst consts)) (operators ++ bracket_words) &&
  forallb (fun q => absent q (map uf_name uns) && absent q (map bf_name bins)) bracket_words &&
  forallb (fun q => absent q (map uf_name uns)) [lit "*"; lit "/"; lit "mod"; lit "m"] &&
  forallb (fun q => present q (map bf_name bins)) operators &&
  forallb (fun f => match uf_notation f with Prefix => true | Postfix => absent (lit "+") [uf_name f] && absent (lit "-") [uf_name f] end) uns &&
  forallb (fun n => nameb n) (map uf_name uns).
Hypothesis T : tidy = true.
Lemma tidy_parts : (forall q, In q (operators ++ bracket_words) -> absent q (map fn_name funs) = true /\ absent q (map fst consts) = true) /\
  (forall q, In q bracket_words -> absent q (map uf_name uns) = true /\ absent q (map bf_name bins) = true) /\
  (forall q, In q [lit "*"; lit "/"; lit "mod"; lit "m"] -> absent q (map uf_name uns) = true) /\
  (forall q, In q operators -> In q (map bf_name bins)) /\
  (forall f, In f uns -> uf_notation f = Postfix -> absent (lit "+") [uf_name f] = true /\ absent (lit "-") [uf_name f] = true).
Proof.
  unfold tidy in T. repeat rewrite andb_true_iff in T. destruct T as (((((T1 & T2) & T3) & T4) & T5) & _). rewrite forallb_forall in T1, T2, T3, T4, T5.
  split; [|split; [|split; [|split]]].
  - intros q Hq. apply andb_true_iff, T1, Hq.
  - intros q Hq. apply andb_true_iff, T2, Hq.
  - intros q Hq. apply T3, Hq.
  - intros q Hq. specialize (T4 q Hq). unfold present in T4. apply existsb_exists in T4. destruct T4 as (n & N1 & N2). apply str_eqb_eq in N2. subst n. exact N1.
  - intros f Hf Hn. specialize (T5 f Hf). rewrite Hn in T5. apply andb_true_iff, T5.
Qed.
Lemma names_absent' : forall q, In q (operators ++ bracket_words) -> get_variable c q = None /\ get_constant c q = None /\ get_function c q = None.
Proof.
  intros q Hq. destruct (proj1 tidy_parts q Hq) as [X1 X2]. split; [reflexivity|]. split.
  - cbn [to_ctx get_constant d_consts]. apply mget_none. apply andb_true_iff in X2. destruct X2 as [X2 X3]. apply andb_true_iff in X2. destruct X2 as [X2 X4].
    rewrite forallb_forall in X3, X4. apply Forall_forall. intros kv Hk. apply (in_map fst) in Hk. rewrite km_low; [apply negb_true_iff, X3; exact Hk|exact X2|apply X4; exact Hk].
  - cbn [to_ctx get_function d_funs]. apply absent_none. exact X1.
Qed.
Lemma un_absent' : forall q, absent q (map uf_name uns) = true -> get_unary c q = None.
Proof. intros q X. cbn [to_ctx get_unary d_unary]. apply absent_none. exact X. Qed.
Lemma bin_absent' : forall q, absent q (map bf_name bins) = true -> get_binary c q = None.
Proof. intros q X. cbn [to_ctx get_binary d_binary]. apply absent_none. exact X. Qed.
Lemma others_not_unary' : forall q, In q [lit "*"; lit "/"; lit "mod"; lit "m"] -> get_unary c q = None.
Proof. intros q Hq. apply un_absent', tidy_parts, Hq. Qed.
Lemma mget_in : forall A (f : A -> str) (l : list A) q, In q (map f l) -> mget (key_match E) (map (fun x => (f x, x)) l) q <> None.
Proof.
  intros A f l q Hq X. apply mget_none in X. rewrite Forall_forall in X. apply in_map_iff in Hq. destruct Hq as (x & <- & Hx). specialize (X (f x, x) (in_map (fun x => (f x, x)) _ _ Hx)). cbn [fst] in X. rewrite (key_match_self E _ _ (alike_refl _)) in X. discriminate.
Qed.
Lemma bins_found' : forall q, In q operators -> get_binary c q <> None.
Proof. intros q Hq. cbn [to_ctx get_binary d_binary]. apply mget_in, tidy_parts, Hq. Qed.
Lemma absent_one : forall q n, absent q [n] = true -> key_match E q n = false.
Proof. intros q n X. unfold absent in X. cbn [forallb] in X. repeat rewrite andb_true_iff in X. destruct X as ((X1 & X2 & _) & X3 & _). rewrite km_low by assumption. apply negb_true_iff, X3. Qed.
Lemma signs_prefix' : forall q n, In q [lit "+"; lit "-"] -> has_notation c q n -> n = Prefix.
Proof.
  intros q n Hq (f & Hf & <-). cbn [to_ctx get_unary d_unary] in Hf. destruct (uf_notation f) eqn:N; [reflexivity|exfalso].
  apply mget_some in Hf. destruct Hf as (k & Hk & M). apply in_map_iff in Hk. destruct Hk as (g & Hg & Hin). injection Hg as <- ->. destruct (proj2 (proj2 (proj2 (proj2 tidy_parts))) f Hin N) as [A1 A2].
  apply absent_one in A1, A2. cbn [In] in Hq. destruct Hq as [<-|[<-|[]]]; congruence.
Qed.
Lemma op_signs' : forall q, In q operators -> sign_may_follow c q.
Proof.
  intros q Hq. split.
  - intros (ch & r & -> & Hu & Hn). unfold unary in Hu. unfold binary in Hn. cbn [In operators] in Hq.
    destruct Hq as [X|[X|[X|[X|[X|[]]]]]]; injection X as <- <-;
      try (apply Hn; refine (bins_found' _ _); cbn; tauto). apply Hu. apply others_not_unary'. cbn. tauto.
  - intros (ch & -> & Hp). cbn [In operators] in Hq. destruct Hq as [X|[X|[X|[X|[X|[]]]]]]; try discriminate X; injection X as <-; discriminate.
Qed.
Variable parse : str -> option V.
Hypothesis P0 : forall q, In q (operators ++ bracket_words) -> parse q = None.
Lemma op_only' : forall q, In q (operators ++ bracket_words) -> operator_only c parse q.
Proof.
  intros q Hq. destruct (names_absent' q Hq) as (A1 & A2 & A3). unfold operator_only, variable, constant, function. rewrite A1, A2, A3. split; [apply P0, Hq|]. tauto.
Qed.
Lemma bracket_nameless' : forall q, In q bracket_words -> nameless c parse q.
Proof.
  intros q Hq. split; [apply op_only', in_or_app; right; exact Hq|]. unfold unary, binary. destruct (proj1 (proj2 tidy_parts) q Hq) as [G1 G2]. rewrite (un_absent' q G1), (bin_absent' q G2). tauto.
Qed.
Lemma spells_binary : forall o, In o operators -> spells c parse (TBinary o) o.
Proof.
  intros o Ho. split; [reflexivity|]. split; [apply op_only', in_or_app; left; exact Ho|]. split; [apply op_words; exact Ho|].
  intros X. unfold operators in Ho. cbn [In] in Ho.
  destruct Ho as [<-|[<-|Ho]]; [discriminate (signs_prefix' _ _ (or_introl eq_refl) X)|discriminate (signs_prefix' _ _ (or_intror (or_introl eq_refl)) X)|].
  destruct X as (f & Hf & _). rewrite others_not_unary' in Hf; [discriminate|]. cbn [In]. tauto.
Qed.
Lemma spells_sign : forall u, In u [lit "+"; lit "-"] -> spells c parse (TUnary u) u.
Proof.
  intros u Hu. assert (Hu' : In u operators) by (cbn [In] in Hu; cbn; tauto). split; [reflexivity|]. split; [apply op_only', in_or_app; left; exact Hu'|]. split; [apply op_words; exact Hu'|].
  intros X. discriminate (signs_prefix' u _ Hu X).
Qed.
Lemma numeral_not_i : forall q, ~ decimal_numeral (lit "i") q.
Proof.
  intros q. enough (G : forall s, decimal_numeral s q -> ~ In 105%N s) by (intros N; apply (G _ N); left; reflexivity). intros s N I. destruct N as [s v Hd Hn|s v t u Hd Hn Ht Hn'].
  - pose proof (digits_char 10 _ _ 105%N ltac:(lia) Hd I). lia.
  - apply in_app_or in I. destruct I as [I|[I|I]]; [pose proof (digits_char 10 _ _ 105%N ltac:(lia) Hd I); lia|discriminate|pose proof (digits_char 10 _ _ 105%N ltac:(lia) Ht I); lia].
Qed.
Variables (read : str -> V) (good : Q -> Prop) (means : V -> Q -> Prop).
Hypothesis R : reads_numerals parse read good means.
Lemma source_spells : forall e q, exact good e q -> forall ws, Forall2 source_word (print e) ws -> Forall2 (spells c parse) (print (with_numbers read e)) ws /\ ~ In (lit "i") ws.
Proof.
  assert (A : forall a b wa wb, Forall2 (spells c parse) a wa /\ ~ In (lit "i") wa -> Forall2 (spells c parse) b wb /\ ~ In (lit "i") wb -> Forall2 (spells c parse) (a ++ b) (wa ++ wb) /\ ~ In (lit "i") (wa ++ wb)).
  { intros a b wa wb [A1 A2] [B1 B2]. split; [apply Forall2_app; assumption|]. intros X. apply in_app_or in X. tauto. }
  assert (B : forall tk w, spells c parse tk w -> w <> lit "i" -> Forall2 (spells c parse) [tk] [w] /\ ~ In (lit "i") [w]).
  { intros tk w X Y. split; [constructor; [exact X|constructor]|]. intros [Z|[]]. contradiction. }
  assert (NI : forall o, In o (operators ++ bracket_words) -> o <> lit "i").
  { intros o Ho X. subst o. cbn in Ho. repeat (destruct Ho as [Ho|Ho]; [discriminate|]). exact Ho. }
  assert (PRE : forall u e ws, In u [lit "+"; lit "-"] -> (forall ws, Forall2 source_word (print e) ws -> Forall2 (spells c parse) (print (with_numbers read e)) ws /\ ~ In (lit "i") ws) ->
    Forall2 source_word (print (EPre u e)) ws -> Forall2 (spells c parse) (print (with_numbers read (EPre u e))) ws /\ ~ In (lit "i") ws).
  { intros u e ws Hu IH Hs. cbn [print with_numbers] in *. apply Forall2_app_inv_l in Hs. destruct Hs as (w1 & w2 & S1 & S2 & ->). inversion S1 as [|? s ? ws' Hx Hr]; subst. inversion Hr; subst. cbn [source_word] in Hx. subst s.
    apply A; [|apply IH; assumption]. apply B; [apply spells_sign; assumption|]. apply NI. cbn [In] in Hu. cbn. tauto. }
  assert (BIN : forall o l r ws, In o operators -> (forall ws, Forall2 source_word (print l) ws -> Forall2 (spells c parse) (print (with_numbers read l)) ws /\ ~ In (lit "i") ws) ->
    (forall ws, Forall2 source_word (print r) ws -> Forall2 (spells c parse) (print (with_numbers read r)) ws /\ ~ In (lit "i") ws) ->
    Forall2 source_word (print (EBin o l r)) ws -> Forall2 (spells c parse) (print (with_numbers read (EBin o l r))) ws /\ ~ In (lit "i") ws).
  { intros o l r ws Ho IHl IHr Hs. cbn [print with_numbers] in *. apply Forall2_app_inv_l in Hs. destruct Hs as (w1 & w2 & S1 & S2 & ->). apply Forall2_app_inv_l in S2. destruct S2 as (w3 & w4 & S3 & S4 & ->).
    inversion S3 as [|? s ? ws' Hx Hr]; subst. inversion Hr; subst. cbn [source_word] in Hx. subst s. apply A; [apply IHl; assumption|]. apply A; [|apply IHr; assumption].
    apply B; [apply spells_binary; exact Ho|]. apply NI. apply in_or_app. left. exact Ho. }
  induction 1 as [s q Hn Hg|g e q He IH|e q He IH|e q He IH|l r p' q Hl IHl Hr IHr Hg|l r p' q Hl IHl Hr IHr Hg|l r p' q Hl IHl Hr IHr Hg|l r p' q Hl IHl Hr IHr Hg|l r p' q Hl IHl Hr IHr Hz Hg|l r p' q Hl IHl Hr IHr Hz]; intros ws Hs;
    try (apply PRE; [cbn; tauto|exact IH|exact Hs]); try (apply BIN; [cbn; tauto|exact IHl|exact IHr|exact Hs]); cbn [print with_numbers] in *.
  - inversion Hs as [|? s' ? ws' Hx Hr]; subst. inversion Hr; subst. cbn [source_word] in Hx. subst s'. apply B; [apply (proj1 R s q Hn Hg)|]. intros ->. exact (numeral_not_i _ Hn).
  - apply Forall2_app_inv_l in Hs. destruct Hs as (w1 & w2 & S1 & S2 & ->). inversion S1 as [|? s ? ws' Hx Hr]; subst. inversion Hr; subst. cbn [source_word] in Hx. subst s.
    apply Forall2_app_inv_l in S2. destruct S2 as (w3 & w4 & S3 & S4 & ->). inversion S4 as [|? s ? ws' Hx Hr4]; subst. inversion Hr4; subst. cbn [source_word] in Hx. subst s.
    destruct (group_bracket g) as [G1 G2]. apply A; [|apply A; [apply IH; assumption|]]; (apply B; [split; [reflexivity|apply bracket_nameless'; assumption]|apply NI; apply in_or_app; right; assumption]).
  - apply Forall2_app_inv_l in Hs. destruct Hs as (w1 & w2 & S1 & S2 & ->). apply A; [apply IHl|apply IHr]; assumption.
Qed.
Lemma source_readable : forall e q, exact good e q -> readable c (with_numbers read e).
Proof.
  induction 1; cbn [with_numbers readable]; first [assumption | exact I | (split; [assumption|intros _; apply op_signs'; cbn; tauto]) | (split; [assumption|split; [assumption|intros _; apply op_signs'; cbn; tauto]]) | (split; assumption)].
Qed.
Lemma source_text : forall e q s ws, exact good e q -> Forall2 source_word (print e) ws -> lexes s ws -> text_of c parse (with_numbers read e) s.
Proof.
  intros e q s ws He Hs Hx. destruct (source_spells e q He ws Hs) as [H1 H2]. exists ws. split; [exact Hx|]. split; [exact H1|]. split; [eapply source_readable; exact He|auto].
Qed.
End Source.
