(** * Texts with imaginary numbers *)
From Coq Require Import List NArith ZArith QArith Bool Arith Lia String.
From Verif Require Import ModelBase ModelContext ModelEvaluator ModelText ModelDefault ModelFloat ModelNum ModelOps ModelSplit ModelTokenizer ModelComplex
  SpecExpr SpecText SpecOps SpecLex SpecParse SpecTokenizer SpecDecimal SpecComplex SpecSource SpecComplexText
  ProofText ProofDefault ProofBuild ProofSplit ProofLex ProofTok ProofExprText ProofTok2 ProofParse ProofIntText ProofSource ProofDecimal ProofComplex.
Import ListNotations.

Section Merge.
Context {V W : Type}.
Variable c : ctx V W.
Variable parse : str -> option V.
Hypothesis Hc : complex_number (cfg c) = true.
Hypothesis Hi : ends_operand c parse (lit "i").
(** The context without complex numbers, and the words with numbers and [i]s put together. *)
Definition plain : ctx V W := Ctx (config_with_complex_number (cfg c) false) (get_variable c) (get_constant c) (get_function c) (get_unary c) (get_binary c).
Inductive merged : list str -> list str -> Prop :=
| merged_none : merged [] []
| merged_word : forall s ws us, (parse s <> None -> forall ws', ws <> lit "i" :: ws') -> merged ws us -> merged (s :: ws) (s :: us)
| merged_pair : forall s ws us v, parse s <> None -> parse (s ++ lit "i") = Some v -> merged ws us -> merged (s :: lit "i" :: ws) ((s ++ lit "i") :: us).
Lemma spelled_merged : forall ts ws, spelled c parse ts ws -> exists us, merged ws us /\ Forall2 (spells plain parse) ts us.
Proof.
  induction 1 as [|t s ts ws Hs Hn _ (us & M & F)|v s ts ws Hp Hv _ (us & M & F)].
  - exists []. split; constructor.
  - exists (s :: us). split; [constructor; assumption|]. constructor; [exact Hs|exact F].
  - exists ((s ++ lit "i") :: us). split; [econstructor; eassumption|]. constructor; [exact Hv|exact F].
Qed.
Lemma merged_nil : forall ws us, merged ws us -> (ws = [] <-> us = []).
Proof. intros ws us H. destruct H; split; intros X; try reflexivity; discriminate. Qed.

(** What comes before a word matters only through whether it ends an operand. *)
Definition alike_before (p q : option str) : Prop := p = q \/ exists a b, p = Some a /\ q = Some b /\ ends_operand c parse a /\ ends_operand c parse b.
Lemma unary_before : forall p q s (P Q : Prop), alike_before p q -> (P <-> Q) -> (unary_here c parse p s P <-> unary_here c parse q s Q).
Proof.
  intros p q s P Q [->|(a & b & -> & -> & Ha & Hb)] PQ; [apply unary_here_last; exact PQ|]. unfold unary_here. split; intros [(N & x & X & Y)|(N & L & X)].
  - left. split; [exact N|]. exists b. auto.
  - exfalso. destruct (X a eq_refl) as (X1 & _). contradiction.
  - left. split; [exact N|]. exists a. auto.
  - exfalso. destruct (X b eq_refl) as (X1 & _). contradiction.
Qed.
Lemma cuts_before : forall p q s (P Q : Prop), alike_before p q -> (P <-> Q) -> cuts c parse p s P -> cuts c parse q s Q.
Proof.
  intros p q s P Q [->|(a & b & -> & -> & Ha & Hb)] PQ (X1 & X2 & X3 & x & Y1 & Y2 & Y3).
  - split; [exact X1|split; [exact X2|split; [tauto|]]]. exists x. auto.
  - injection Y1 as <-. contradiction.
Qed.
Lemma stands_before : forall p q s (P Q : Prop) t, alike_before p q -> (P <-> Q) -> stands_for plain parse p s P t -> stands_for c parse q s Q t.
Proof.
  intros p q s P Q t Hpq PQ H. pose proof (unary_before p q s P Q Hpq PQ) as U.
  destruct H as [v H|H1 H2|H1 H2 H3|H1 H2 H3 H4|H1 H2|H1 H2 H3 H4 H5|H1 H2|g H1 H2|g H1 H2|H1 H2 H3 H4].
  - apply S_number; assumption.
  - apply S_variable; assumption.
  - apply S_constant; assumption.
  - apply S_function; assumption.
  - apply S_unary; [exact H1|]. apply U. exact H2.
  - apply S_binary; [exact H1|exact H2| | |tauto].
    + intros X. apply H3. apply U. exact X.
    + intros X. destruct Hpq as [->|(a & b & -> & -> & _)]; [contradiction|discriminate].
  - apply S_comma; assumption.
  - apply S_open; assumption.
  - apply S_close; assumption.
  - apply S_unknown; assumption.
Qed.
Lemma unmerge : forall q us ts, stand_for plain parse q us ts -> forall p ws, merged ws us -> alike_before q p -> stand_for c parse p ws ts.
Proof.
  induction 1 as [q|q us ts Hn H IH|q s us t ts Hs Hcut Hx H IH|q s us v ts Hy Hp Hv H IH]; intros p ws M B.
  - inversion M; subst. constructor.
  - inversion M as [|s ws' us' Hw M' Es|s ws' us' v Hp Hv M' Es]; subst.
    + apply SS_space; [exact Hn|]. apply IH; [exact M'|]. left. reflexivity.
    + exfalso. match goal with X : s ++ _ = _ |- _ => destruct s as [|? [|? ?]]; discriminate X end.
  - inversion M as [|s' ws' us' Hw M' Es|s' ws' us' v Hp Hv M' Es]; subst.
    + pose proof (merged_nil _ _ M') as N. apply SS_word.
      * apply (stands_before q p s (us = []) (ws' = []) t B); [tauto|exact Hs].
      * intros X. apply Hcut. apply (cuts_before p q s (ws' = []) (us = [])); [|tauto|exact X]. destruct B as [->|(a & b & -> & -> & Ha & Hb)]; [left; reflexivity|right; exists b, a; auto].
      * intros (_ & X & ws2 & ->). exact (Hw X _ eq_refl).
      * apply IH; [exact M'|left; reflexivity].
    + assert (Et : t = TNumber v). { assert (Y : forall z, parse (s' ++ lit "i") = Some v -> stands_for plain parse q (s' ++ lit "i") (us = []) z -> z = TNumber v).
        { intros z Z G. destruct G as [v0 G|G _|G _ _|G _ _ _|(G & _) _|(G & _) _ _ _ _|((G & _) & _) _|g ((G & _) & _) _|g ((G & _) & _) _|((G & _) & _) _ _ _]; congruence. }
        exact (Y t Hv Hs). }
      subst t. apply SS_complex; [exact Hc|exact Hp|exact Hv|]. apply IH; [exact M'|]. right. exists (s' ++ lit "i"), (lit "i"). split; [reflexivity|]. split; [reflexivity|]. split; [|exact Hi]. left. congruence.
  - discriminate.
Qed.
Lemma complex_stands : forall e ws, wf c e -> readable c e -> spelled c parse (print e) ws -> stand_for c parse None ws (print e).
Proof.
  intros e ws Hw Hr Hs. destruct (spelled_merged _ _ Hs) as (us & M & F). apply (unmerge None us _); [|exact M|left; reflexivity].
  apply text_stands; [exact Hw|exact Hr|exact F|]. intros X. discriminate.
Qed.
Lemma spelled_some : forall ts ws, spelled c parse ts ws -> ts <> [] -> ws <> [].
Proof. intros ts ws H. destruct H; congruence. Qed.
Lemma complex_tokenize : forall e s, wf c e -> complex_text_of c parse e s -> tokenize c parse (split_into_tokens default_splitter) s = Ok (print e).
Proof.
  intros e s Hw (ws & Hl & Hs & Hr). unfold tokenize.
  assert (T : trim s <> []) by (eapply lexes_trim; [exact Hl|eapply spelled_some; [exact Hs|apply print_nonempty]]).
  destruct (trim s); [congruence|]. apply lexes_split in Hl. unfold dsplit, D in Hl. rewrite Hl. apply loop_complete, complex_stands; assumption.
Qed.
End Merge.

(** ** Source expressions in a complex context *)
Section Source.
Context {W : Type}.
Variables (L : clib) (rnd : W -> f64 * W) (E : env) (cf : config).
Notation c := (to_ctx E (cx_ctx L rnd cf)).
Variables (parse : str -> option (f64 * f64)) (read : str -> f64 * f64).
Hypothesis R : reads_complex parse read.
Lemma cx_tidy : tidy (W := W) cx_consts (cx_bins L) cx_uns (cx_funs L rnd) = true.
Proof. clear. vm_compute. reflexivity. Qed.
Lemma numeral_parses : forall e a b, complex_exact e a b -> forall s, In (TNumber s) (print e) -> parse s = Some (read s).
Proof.
  intros e a b H. destruct R as (R1 & R2 & (R3 & _) & _). induction H; intros t Ht; cbn [print] in Ht;
    repeat match goal with X : In _ (_ ++ _) |- _ => apply in_app_or in X; destruct X as [X|X] end; cbn [In] in Ht;
    try (destruct Ht as [Ht|[]]; try discriminate Ht; injection Ht as <-); try (apply (R1 s q); assumption); try (apply (R2 s q); assumption); try exact R3; auto.
Qed.
(** A numeral that is part of an imaginary number is read by itself too. *)
Lemma numeral_alone : forall e a b, complex_exact e a b -> forall s q, decimal_numeral s q -> In (TNumber (imaginary s)) (print e) -> parse s <> None.
Proof.
  assert (INJ : forall s s', imaginary s = imaginary s' -> s = s') by (intros s s' X; apply app_inj_tail in X; apply X).
  assert (NI : forall s q, decimal_numeral s q -> forall s', s <> imaginary s').
  { intros s q N s' ->. assert (G : In 105%N (imaginary s')) by (unfold imaginary; apply in_or_app; right; left; reflexivity). revert G.
    remember (imaginary s') as s eqn:Es. clear Es. intros G. destruct N as [s v Hd Hn|s v t u Hd Hn Ht Hn'].
    - pose proof (digits_char 10 _ _ 105%N ltac:(lia) Hd G). lia.
    - apply in_app_or in G. destruct G as [G|[G|G]]; [pose proof (digits_char 10 _ _ 105%N ltac:(lia) Hd G); lia|discriminate|pose proof (digits_char 10 _ _ 105%N ltac:(lia) Ht G); lia]. }
  assert (NE : forall s q, decimal_numeral s q -> s <> []). { intros s q [s' v Hd Hn|s' v t u Hd Hn Ht Hn']; [exact Hn|]. destruct s'; [congruence|discriminate]. }
  intros e a b H. destruct R as (R1 & R2 & (R3 & _) & _). induction H; intros t p Hp Ht; cbn [print] in Ht;
    repeat match goal with X : In _ (_ ++ _) |- _ => apply in_app_or in X; destruct X as [X|X] end; cbn [In] in Ht;
    try (destruct Ht as [Ht|[]]; try discriminate Ht); eauto.
  - injection Ht as Ht. destruct (NI _ _ H _ Ht).
  - injection Ht as Ht. apply INJ in Ht. subst t. destruct (R1 s q H H0) as [-> _]. discriminate.
  - assert (Ht' : lit "i" = imaginary t) by congruence. change (lit "i") with (imaginary []) in Ht'. apply INJ in Ht'. destruct (NE _ _ Hp). auto.
Qed.
Definition read_token (t : token str) : token (f64 * f64) :=
  match t with
  | TNumber s => TNumber (read s) | TVariable x => TVariable x | TConstant x => TConstant x | TFunction x => TFunction x
  | TBinary x => TBinary x | TUnary x => TUnary x | TArgCount n => TArgCount n | TOpen k => TOpen k | TClose k => TClose k | TUnknown x => TUnknown x | TComma => TComma
  end.
Lemma map_join : forall (l : list (list (token str))), map read_token (join [TComma] l) = join [TComma] (map (map read_token) l).
Proof. induction l as [|a [|b l] IH]; [reflexivity|reflexivity|]. change (join [TComma] (a :: b :: l)) with (a ++ [TComma] ++ join [TComma] (b :: l)). rewrite !map_app, IH. reflexivity. Qed.
Lemma print_read : forall e, print (with_numbers read e) = map read_token (print e).
Proof.
  refine (expr_ind' _ _ _ _ _ _ _ _ _ _ _); intros; cbn [print with_numbers]; rewrite ?map_app; cbn [map read_token]; try reflexivity; try congruence.
  rewrite map_join, !map_map. f_equal. f_equal. f_equal. apply map_ext_in. rewrite Forall_forall in H. exact H.
Qed.
(** The symbols of such expressions. *)
Definition symbol_ok (t : token str) : Prop :=
  match t with TNumber _ => True | TBinary o => In o operators | TUnary u => In u [lit "+"; lit "-"] | TOpen k | TClose k => In [k] bracket_words | _ => False end.
Lemma symbols_ok : forall e a b, complex_exact e a b -> Forall symbol_ok (print e).
Proof.
  intros e a b H. induction H; cbn [print]; repeat (apply Forall_app; split); try (constructor; [|constructor]); try assumption; cbn [symbol_ok]; try exact I; try (cbn; tauto); try (destruct (group_bracket g); assumption).
Qed.
Lemma cx_spelled : forall ts ws, complex_words ts ws -> Forall symbol_ok ts ->
  (forall s, In (TNumber s) ts -> parse s = Some (read s)) -> (forall s q, decimal_numeral s q -> In (TNumber (imaginary s)) ts -> parse s <> None) ->
  spelled c parse (map read_token ts) ws.
Proof.
  assert (P0 : forall q, In q (operators ++ bracket_words) -> parse q = None) by apply R.
  induction 1 as [|s q ts ws Hs Hn Hw IH|s q ts ws Hs Hw IH|ts ws Hn Hw IH|t s ts ws Ht Hs Hw IH]; intros Ho Hp Ha; cbn [map read_token]; [constructor|..];
    inversion Ho as [|? ? Ho1 Ho2]; subst; (assert (IH' := IH Ho2 (fun s h => Hp s (or_intror h)) (fun s q d h => Ha s q d (or_intror h)))).
  - apply spelled_word; [exact (Hp s (or_introl eq_refl))|intros _; exact Hn|exact IH'].
  - apply spelled_imaginary; [exact (Ha s q Hs (or_introl eq_refl))|exact (Hp (imaginary s) (or_introl eq_refl))|exact IH'].
  - apply spelled_word; [exact (Hp (lit "i") (or_introl eq_refl))|intros _; exact Hn|exact IH'].
  - destruct t as [x|x|x|x|o|u|n|k|k|x|]; cbn [symbol_ok] in Ho1; try contradiction; cbn [source_word] in Hs; subst s; cbn [read_token].
    + destruct (Ht x eq_refl).
    + apply spelled_word; [|intros X; destruct (X (P0 o (in_or_app _ _ _ (or_introl Ho1))))|exact IH']. exact (spells_binary _ _ _ _ _ E cx_tidy parse P0 o Ho1).
    + apply spelled_word; [|intros X|exact IH']. { exact (spells_sign _ _ _ _ _ E cx_tidy parse P0 u Ho1). }
      exfalso. apply X, P0. apply in_or_app. left. cbn [In] in Ho1. cbn. tauto.
    + apply spelled_word; [|intros X; destruct (X (P0 [k] (in_or_app _ _ _ (or_intror Ho1))))|exact IH']. split; [reflexivity|]. exact (bracket_nameless' _ _ _ _ _ E cx_tidy parse P0 [k] Ho1).
    + apply spelled_word; [|intros X; destruct (X (P0 [k] (in_or_app _ _ _ (or_intror Ho1))))|exact IH']. split; [reflexivity|]. exact (bracket_nameless' _ _ _ _ _ E cx_tidy parse P0 [k] Ho1).
Qed.
Lemma cx_readable : forall e a b, complex_exact e a b -> readable c (with_numbers read e).
Proof.
  assert (S : forall q, In q operators -> sign_may_follow c q) by (intros q Hq; exact (op_signs' _ _ _ _ _ E cx_tidy q Hq)).
  induction 1; cbn [with_numbers readable]; first [assumption | exact I | (split; [assumption|intros _; apply S; cbn; tauto]) | (split; [assumption|split; [assumption|intros _; apply S; cbn; tauto]]) | (split; assumption)].
Qed.
Lemma cx_text : forall e a b s ws, complex_exact e a b -> complex_words (print e) ws -> lexes s ws -> complex_text_of c parse (with_numbers read e) s.
Proof.
  intros e a b s ws He Hw Hl. exists ws. split; [exact Hl|]. split; [|exact (cx_readable e a b He)]. rewrite print_read.
  apply cx_spelled; [exact Hw|exact (symbols_ok e a b He)|exact (numeral_parses e a b He)|exact (numeral_alone e a b He)].
Qed.
Lemma cx_i : ends_operand c parse (lit "i").
Proof. left. destruct R as (_ & _ & (-> & _) & _). discriminate. Qed.
Lemma cx_values : forall e a b, complex_exact e a b -> complex_value (with_numbers read e) a b.
Proof.
  destruct R as (R1 & R2 & (_ & R3) & _).
  induction 1; cbn [with_numbers]; try (econstructor; eauto; apply alike_refl; fail); apply CV_number; first [apply (R1 s q); assumption|apply (R2 s q); assumption|exact R3].
Qed.
End Source.
